(** Model of the construction of a phase graph, src/uvm/base/uvm_phase.py: the constructor
    (231-232, 273-278), add (434-575), is_before/is_after (374-395) and the searches
    m_find_successor/m_find_predecessor (1002-1054).

    The predecessors and successors of a node are dictionary objects; [add] sometimes makes
    two nodes share one, so the objects are explicit: a node has the identity of its two
    dictionaries, and a dictionary is its list of keys in insertion order.

    Simplified: the arguments with_phase, before_phase and after_phase are nodes of the graph
    (an IMP is first looked up with find(), 443-462); the checks that end in uvm_fatal are
    modelled as the result [Fatal]; the state change callbacks (565-575) are left out. *)
From Coq Require Import List Bool Arith.
From Verif Require Import Prelude.
Import ListNotations.

(** sdid/pdid: the identity of m_successors/m_predecessors; imp: m_imp *)
Record pg := PG { sdid : nat -> nat; pdid : nat -> nat; dict : nat -> list nat; nextd : nat; nodes : list nat }.
Definition Succ (s : pg) (n : nat) : list nat := dict s (sdid s n).
Definition Pred (s : pg) (n : nat) : list nat := dict s (pdid s n).
Inductive res := Done (s : pg) | KeyErr | Fatal.

(** d[k] = 1; del d[k] *)
Definition mem (l : list nat) (x : nat) : bool := existsb (Nat.eqb x) l.
Definition dput (l : list nat) (x : nat) : list nat := if mem l x then l else l ++ [x].
Definition dremove (l : list nat) (x : nat) : list nat := filter (fun y => negb (Nat.eqb x y)) l.
Definition put (s : pg) (d x : nat) : pg := PG (sdid s) (pdid s) (upd (dict s) d (dput (dict s d) x)) (nextd s) (nodes s).
Definition del (s : pg) (d x : nat) : option pg :=
  if mem (dict s d) x then Some (PG (sdid s) (pdid s) (upd (dict s) d (dremove (dict s d) x)) (nextd s) (nodes s)) else None.

(** 231-232: a node with two new dictionaries *)
Definition new_node (s : pg) (n : nat) : pg :=
  PG (upd (sdid s) n (nextd s)) (upd (pdid s) n (S (nextd s))) (upd (upd (dict s) (nextd s) []) (S (nextd s)) []) (S (S (nextd s))) (n :: nodes s).
(** 273-278: a schedule or domain [b] with its end node [e] *)
Definition new_schedule (s : pg) (b e : nat) : pg :=
  let s := new_node (new_node s b) e in put (put s (sdid s b) e) (pdid s e) b.

(** 525-531 *)
Definition add_with (s : pg) (b e w : nat) : pg :=
  let ps := Pred s w in let ss := Succ s w in
  let s := PG (sdid s) (upd (pdid s) b (pdid s w)) (dict s) (nextd s) (nodes s) in
  let s := PG (upd (sdid s) e (sdid s w)) (pdid s) (dict s) (nextd s) (nodes s) in
  let s := fold_left (fun s p => put s (sdid s p) b) ps s in
  fold_left (fun s q => put s (pdid s q) e) ss s.

(** 536-538 *)
Fixpoint relink_preds (s : pg) (ps : list nat) (x b : nat) : option pg :=
  match ps with
  | [] => Some s
  | p :: t => match del s (sdid s p) x with None => None | Some s => relink_preds (put s (sdid s p) b) t x b end
  end.
(** 533-540 *)
Definition add_before (s : pg) (b e x : nat) : option pg :=
  let s := PG (sdid s) (upd (pdid s) b (pdid s x)) (dict s) (nextd s) (nodes s) in
  let s := put s (sdid s e) x in
  match relink_preds s (Pred s x) x b with
  | None => None
  | Some s => Some (PG (sdid s) (upd (pdid s) x (nextd s)) (upd (dict s) (nextd s) [e]) (S (nextd s)) (nodes s))
  end.

(** 545-547 *)
Fixpoint relink_succs (s : pg) (qs : list nat) (x e : nat) : option pg :=
  match qs with
  | [] => Some s
  | q :: t => match del s (pdid s q) x with None => None | Some s => relink_succs (put s (pdid s q) e) t x e end
  end.
(** 542-549 *)
Definition add_after (s : pg) (b e x : nat) : option pg :=
  let s := PG (upd (sdid s) e (sdid s x)) (pdid s) (dict s) (nextd s) (nodes s) in
  let s := put s (pdid s b) x in
  match relink_succs s (Succ s x) x e with
  | None => None
  | Some s => Some (PG (upd (sdid s) x (nextd s)) (pdid s) (upd (dict s) (nextd s) [b]) (S (nextd s)) (nodes s))
  end.

(** 1033-1054 with stay_in_scope false: only the first successor is followed. None: the
    recursion does not end. *)
Section Find.
Context (imp : nat -> option nat).
Definition is_ (n q : nat) : bool := Nat.eqb n q || match imp n with Some i => Nat.eqb i q | None => false end.
Fixpoint find_first (fuel : nat) (nbr : nat -> list nat) (n q : nat) : option (option nat) :=
  match fuel with
  | O => None
  | S k => if is_ n q then Some (Some n) else match nbr n with [] => Some None | m :: _ => find_first k nbr m q end
  end.
(** 382-385, 392-395 *)
Definition is_before (fuel : nat) (s : pg) (n q : nat) : option bool :=
  if is_ n q then Some false else option_map (fun r => match r with Some _ => true | None => false end) (find_first fuel (Succ s) n q).
Definition is_after (fuel : nat) (s : pg) (n q : nat) : option bool :=
  if is_ n q then Some false else option_map (fun r => match r with Some _ => true | None => false end) (find_first fuel (Pred s) n q).

(** 551-562 *)
Definition add_between (fuel : nat) (s : pg) (b e a x : nat) : res :=
  match is_before fuel s a x with
  | Some true =>
      let s := put s (pdid s b) a in
      let s := put s (sdid s e) x in
      let s := put s (sdid s a) b in
      let s := put s (pdid s x) e in
      if mem (Succ s a) x then
        match del s (sdid s a) x with
        | None => KeyErr
        | Some s => match del s (sdid s x) a with None => KeyErr | Some s => Done s end
        end
      else Done s
  | _ => Fatal
  end.
End Find.

(** 464-562: what is asked for. *)
Inductive where_ := AtEnd | With (w : nat) | Before (x : nat) | After (x : nat).
(** [top], [tend]: the schedule on which add is called and its end node (469-471, 503-506). *)
Definition add (s : pg) (top tend b e : nat) (w : where_) : res :=
  let lift o := match o with Some s => Done s | None => KeyErr end in
  match w with
  | AtEnd => lift (add_before s b e tend)
  | With x => if Nat.eqb x tend then Fatal else Done (add_with s b e x)
  | Before x => if Nat.eqb x top then Fatal else lift (add_before s b e x)
  | After x => if Nat.eqb x tend then Fatal else lift (add_after s b e x)
  end.
