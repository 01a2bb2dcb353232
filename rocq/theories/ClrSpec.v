(** Spec of clearing an objection. *)
From Coq Require Import List ZArith.
From Verif Require Import ObjectionModel ClrModel.
Import ListNotations.
Open Scope Z_scope.

(** Nothing is counted and no drain is about to begin. *)
Definition nothing (o : objn) : Prop := (forall x, tot o x = 0) /\ (forall x, src o x = 0) /\ sched o = [].
(** No drain was forked, and none runs that was not taken back by a raise. *)
Definition no_drains (objs : list nat) (o : objn) : Prop := flist o = [] /\ (forall x, In x objs -> fctx o x = None).
(** the count of a call of raise_objection() or drop_objection() is positive *)
Definition positive (l : clab) : Prop :=
  match l with LObj (LRaise _ k) | LObj (LDrop _ k) => 0 < k | _ => True end.
Definition no_raise (l : clab) : Prop := match l with LObj (LRaise _ _) => False | _ => True end.
(** what may be seen of drains that still run, and of further clears *)
Definition harmless (x : cout) : Prop :=
  match x with OObj (OAllDropped _) | OObj OKeyError | OExn _ | OReleased => True | _ => False end.
