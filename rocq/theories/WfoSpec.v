(** Spec of wait_for, in terms of the labels of an execution. *)
From Coq Require Import List Bool Arith.
From Verif Require Import WfoModel.
Import ListNotations.

(** [p] is left alone: not resumed, not killed. *)
Definition alone (p : nat) (l : lab) : Prop := l <> LRun p /\ l <> LKill p.
Definition no_kill (l : lab) : Prop := match l with LKill _ => False | _ => True end.
(** a process is inside a call of wait_for for object [o] *)
Definition inside (x : proc) (o : nat) : Prop := exists k, x = PWait o k \/ x = PReady o k.
