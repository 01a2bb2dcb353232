(** Edit distance, without reference to the algorithm. *)
From Coq Require Import List Arith.
From Verif Require Import SpellModel.
Import ListNotations.

(** One insertion, deletion or substitution. *)
Definition edit1 (s t : str) : Prop :=
  exists l r, (exists a b, s = l ++ a :: r /\ t = l ++ b :: r)
           \/ (exists a, s = l ++ a :: r /\ t = l ++ r)
           \/ (exists b, s = l ++ r /\ t = l ++ b :: r).
Inductive edits : nat -> str -> str -> Prop :=
| E_none s : edits 0 s s
| E_one k s u t : edit1 s u -> edits k u t -> edits (S k) s t.
Definition edit_distance (s t : str) (k : nat) : Prop :=
  edits k s t /\ forall k', edits k' s t -> k <= k'.
