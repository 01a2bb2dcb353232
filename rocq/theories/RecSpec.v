(** Specification side of the recording theorems: what the lines of one recorder look like. *)
From Coq Require Import ZArith List Bool Arith.
From Verif Require Import Prelude RecModel.
Import ListNotations.
Open Scope Z_scope.

(** The lines about recorder [r] *)
Definition about (r : nat) (l : line) : bool :=
  match l with
  | WOpen r' _ _ _ | WAttr r' _ | WClose r' _ | WFree r' => Nat.eqb r' r
  | WStream _ | WLink _ _ => false
  end.
Definition lines (r : nat) (l : list line) : list line := filter (about r) l.
Definition is_attr (l : line) : Prop := match l with WAttr _ _ => True | _ => False end.
Definition is_mid (l : line) : Prop := match l with WAttr _ _ | WClose _ _ => True | _ => False end.

(** The lines of an open recorder: its opening, then attributes. *)
Definition open_lines (r : nat) (topen : Z) (l : list line) : Prop :=
  exists i ch ats, l = WOpen r i topen ch :: ats /\ Forall is_attr ats.
(** Those of a closed one: its opening, then attributes and closings; the last closing carries
    the closing time. *)
Definition closed_lines (r : nat) (topen tclose : Z) (l : list line) : Prop :=
  exists i ch mid ats, l = WOpen r i topen ch :: mid ++ WClose r tclose :: ats /\ Forall is_mid mid /\ Forall is_attr ats.

Definition rank (x : life) : nat := match x with LNew => 0 | LOpen => 1 | LClosed => 2 | LFreed => 3 end.
Definition active (x : life) : Prop := x = LOpen \/ x = LClosed.
Definition link (l : line) : bool := match l with WLink _ _ => true | _ => false end.

(** Calls of a history that uses transactions only, without switching their recording off and
    without closing the database. *)
Definition tr_call (c : call) : Prop :=
  match c with
  | Tick _ | OpenDb | OpenStream | Begin _ _ _ | End _ _ _ | Accept _ _ | FromHandle _ => True
  | SetStream _ (Some _) => True
  | _ => False
  end.
(** A call that does not ask a freed recorder for its handle. *)
Definition polite (s : st) (c : call) : Prop :=
  let fresh r := r_life (rec s r) <> LFreed in
  match c with
  | GetHandle r => fresh r
  | CBegin _ _ _ (Some r) _ _ _ => fresh r
  | CEnd c t _ _ => match c_trh (cmp s c) t with Some r => fresh r /\ t_rec (tr s t) <> Some r | None => True end
  | _ => True
  end.
Fixpoint all_polite (attrs : nat -> list nat) (s : st) (cs : list call) : Prop :=
  match cs with [] => True | c :: cs => polite s c /\ all_polite attrs (fst (step attrs s c)) cs end.

(** The stream [i] a component records a transaction on, and the line that appears when it is
    opened for that: a stream opened before under this name, or else a new one. *)
Definition resolved (s : st) (c : nat) (name : option nat) (i : nat) (pre : list line) : Prop :=
  match name with
  | None => c_main (cmp s c) = None /\ i = nstr s /\ pre = [WStream i]
  | Some n =>
      assocn n (c_streams (cmp s c)) = Some (Some i) /\ pre = [] \/
      assocn n (c_streams (cmp s c)) = None /\ i = nstr s /\ pre = [WStream i]
  end.
(** The call is neither begin_tr() nor end_tr() of component [c] for transaction [t]. *)
Definition apart (c t : nat) (x : call) : Prop :=
  match x with CBegin k t' _ _ _ _ _ | CEnd k t' _ _ => k = c -> t' <> t | _ => True end.
(** The lines that end a recorder. *)
Definition end_lines (attrs : nat -> list nat) (t r : nat) (e : Z) (fr : bool) : list line :=
  map (WAttr r) (attrs t) ++ WClose r e :: (if fr then [WFree r] else []).
(** Those of a begin: the recorder the transaction still has is ended at the same time. *)
Definition begin_lines (attrs : nat -> list nat) (s : st) (t : nat) (b : Z) (h : option nat) : list line :=
  match t_rec (tr s t) with Some r => end_lines attrs t r b true | None => [] end ++
  match t_stream (tr s t) with
  | Some i => [WOpen (nrec s) i b (match from_handle s h with Some _ => true | None => false end)]
  | None => []
  end.
(** 0 stands for the simulation time. *)
Definition time_of (s : st) (t : Z) : Z := if t =? 0 then now s else t.
