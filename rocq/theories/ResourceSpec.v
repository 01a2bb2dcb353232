(** What the databases should return, in terms of the calls made. *)
From Coq Require Import List Bool Arith ZArith.
From Verif Require Import ResourceModel.
Import ListNotations.
Open Scope Z_scope.

(** ** The resource database: a list of values in the order they were set.
    Reading and writing go to the first one visible. *)
Record rval := RVal { v_name : nat; v_scope : nat; v_val : Z }.
Inductive rdb_op := DSet (scope name : nat) (v : Z) | DWrite (path name : nat) (v : Z).
Section S.
Context (smatch : nat -> nat -> bool).
Definition visible (path name : nat) (r : rval) : bool :=
  Nat.eqb (v_name r) name && smatch (v_scope r) path.
Fixpoint write_first (path name : nat) (v : Z) (l : list rval) : list rval :=
  match l with
  | [] => []
  | r :: l => if visible path name r then RVal (v_name r) (v_scope r) v :: l
              else r :: write_first path name v l
  end.
Definition rdb_spec1 (l : list rval) (o : rdb_op) : list rval :=
  match o with
  | DSet scope name v => l ++ [RVal name scope v]
  | DWrite path name v => write_first path name v l
  end.
Definition rdb_spec (ops : list rdb_op) : list rval := fold_left rdb_spec1 ops [].
Definition rdb_read (l : list rval) (path name : nat) : option Z :=
  option_map v_val (find (visible path name) l).

(** ** The configuration database *)
Record cset := CSet {
  c_ctx : nat; c_depth : Z; c_build : bool; c_inst : nat; c_field : nat; c_val : Z }.
Definition c_key (e : cset) : ckey := (c_ctx e, c_inst e, c_field e).
Definition same (a b : cset) : bool := ckey_eqb (c_key a) (c_key b).
(** Sets made in the build phase are weaker the deeper their context. *)
Definition c_prec (e : cset) : Z := if c_build e then 1000 - c_depth e else 1000.
Definition applies (path field : nat) (e : cset) : bool :=
  Nat.eqb (c_field e) field && smatch (c_inst e) path.

(** the sets not made again later *)
Fixpoint current (hist : list cset) : list cset :=
  match hist with
  | [] => []
  | e :: h => if existsb (same e) h then current h else e :: current h
  end.
Definition times (hist : list cset) (e : cset) : nat := length (filter (same e) hist).

(** The search order the code implements: sets made once, latest first; then
    the repeated ones, in the order of their last repetition. *)
Definition order (hist : list cset) : list cset :=
  rev (filter (fun e => Nat.eqb (times hist e) 1) (current hist)) ++
  filter (fun e => negb (Nat.eqb (times hist e) 1)) (current hist).

(** [winner l e]: [e] is the first set of highest precedence in [l]. *)
Definition winner (l : list cset) (e : cset) : Prop :=
  exists l1 l2, l = l1 ++ e :: l2 /\
    Forall (fun x => c_prec x < c_prec e) l1 /\ Forall (fun x => c_prec x <= c_prec e) l2.
End S.
