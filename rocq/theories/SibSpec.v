(** Neighbouring phases in a phase graph, by paths; phases that are not nodes (schedules,
    domains and their end markers) are passed through. *)
From Coq Require Import List.
From Verif Require Import PhaseRunModel.
Import ListNotations.

(** from [x] to [t], only the last of which is a node *)
Inductive Via (node : nat -> bool) (nbr : nat -> list nat) : nat -> nat -> Prop :=
| via_node t : node t = true -> Via node nbr t t
| via_pass x y t : node x = false -> In y (nbr x) -> Via node nbr y t -> Via node nbr x t.
(** the first nodes after [n]; the last ones before [n] *)
Definition Next (g : pgraph) (n s : nat) : Prop := exists x, In x (succs g n) /\ Via (isnode g) (succs g) x s.
Definition Prev (g : pgraph) (n p : nat) : Prop := exists x, In x (preds g n) /\ Via (isnode g) (preds g) x p.
(** [p] comes right before something that comes right after [n] *)
Definition Besides (g : pgraph) (n p : nat) : Prop := exists s, Next g n s /\ Prev g s p.
Definition Sibling (g : pgraph) (n p : nat) : Prop := Besides g n p /\ p <> n.
