(** Specification for the ids of sequences and items, on the calls alone. The newest call is the
    first of the list. *)
From Coq Require Import ZArith List Bool Arith.
From Verif Require Import Prelude IdsModel.
Import ListNotations.
Local Open Scope nat_scope.

(** q was started and has not finished *)
Fixpoint running (h : list lab) (q : nat) : bool :=
  match h with
  | [] => false
  | Start p _ :: h => (p =? q) || running h q
  | Finish p :: h => negb (p =? q) && running h q
  | _ :: h => running h q
  end.
(** How often q was started *)
Fixpoint runs (h : list lab) (q : nat) : nat :=
  match h with
  | [] => 0
  | Start p _ :: h => if (p =? q) && negb (running h q) then S (runs h q) else runs h q
  | _ :: h => runs h q
  end.
(** The sequencer of the last start *)
Fixpoint home_of (h : list lab) (q : nat) : option nat :=
  match h with
  | [] => None
  | Start p s :: h => if p =? q then s else home_of h q
  | _ :: h => home_of h q
  end.
(** Calls of start that have finished and not yet left *)
Fixpoint leaving (h : list lab) (q : nat) : nat :=
  match h with
  | [] => 0
  | Finish p :: h => if (p =? q) && running h q then S (leaving h q) else leaving h q
  | Leave p :: h => if p =? q then Nat.pred (leaving h q) else leaving h q
  | _ :: h => leaving h q
  end.
(** Grants not yet used *)
Fixpoint grants (h : list lab) (q : nat) : nat :=
  match h with
  | [] => 0
  | Granted p :: h => if p =? q then S (grants h q) else grants h q
  | Send p _ _ :: h => if p =? q then Nat.pred (grants h q) else grants h q
  | _ :: h => grants h q
  end.
(** [talks h q s r]: in its r-th run q was started on sequencer s or asked it for a grant or lock
    (with r = 0: before its first start). *)
Fixpoint talks (h : list lab) (q s r : nat) : Prop :=
  match h with
  | [] => False
  | Start p s' :: h' => (p = q /\ running h' q = false /\ s' = Some s /\ r = runs h q) \/ talks h' q s r
  | Ask p s' :: h' => (p = q /\ s' = s /\ r = runs h q) \/ talks h' q s r
  | _ :: h => talks h q s r
  end.
(** [from h x q s r]: the ids of x are those of an item that q sent through s in its r-th run. *)
Fixpoint from (h : list lab) (x q s r : nat) : Prop :=
  match h with
  | [] => False
  | Send p s' z :: h => if (z =? x) && negb (grants h p =? 0) then p = q /\ s' = s /\ r = runs h q /\ talks h q s r else from h x q s r
  | Info z w :: h => if z =? x then from h w q s r else from h x q s r
  | _ :: h => from h x q s r
  end.
(** [left h q s r]: q has left sequencer s after its r-th run. *)
Fixpoint left_ (h : list lab) (q s r : nat) : Prop :=
  match h with
  | [] => False
  | Leave p :: h => (p = q /\ leaving h q <> 0 /\ home_of h q = Some s /\ r = runs h q /\ talks h q s r) \/ left_ h q s r
  | _ :: h => left_ h q s r
  end.
(** Calls that change the ids of item x *)
Definition touches (x : nat) (l : lab) : bool := match l with Send _ _ z => z =? x | Info z _ => z =? x | _ => false end.
(** What the last call says *)
Definition says (h : list lab) (l : lab) : list out := snd (step (after h) l).

(** *** What get_sequence_id() and get_transaction_id() of an item answer *)
Definition sid_of (h : list lab) (x : nat) : option nat := sid (items (after h) x).
Definition tid_of (h : list lab) (x : nat) : option Z := tid (items (after h) x).
Fixpoint was_sent (h : list lab) (x : nat) : bool :=
  match h with
  | [] => false
  | Send p _ z :: h => ((z =? x) && negb (grants h p =? 0)) || was_sent h x
  | _ :: h => was_sent h x
  end.
(** The items that q was the first to send, the newest first *)
Fixpoint first_sent (h : list lab) (q : nat) : list nat :=
  match h with
  | [] => []
  | Send p _ x :: h => if (p =? q) && negb (grants h q =? 0) && negb (was_sent h x) then x :: first_sent h q else first_sent h q
  | _ :: h => first_sent h q
  end.
(** No transaction id is set by hand, and only items that are never sent (responses) get ids from
    others. *)
Definition plain (h : list lab) : Prop := (forall x t, ~ In (SetTid x t) h) /\ (forall z x, In (Info z x) h -> was_sent h z = false).
