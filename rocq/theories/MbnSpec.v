(** Spec of the search of an address map by name. Maps are numbered in the order of creation;
    the tree of maps is the one of the successful calls of add_submap. *)
From Coq Require Import List Bool String.
From Verif Require Import MtrModel MtrSpec.
Import ListNotations.

Section Search.
Context (s : ms) (tr : list out) (name : nat -> string) (n : string).
(** a map made by create_map of block [b] *)
Definition own (b m : nat) : Prop := m < nm s /\ p_blk (mp s m) = b.
(** no map strictly below [m] has the name *)
Definition barren (m : nat) : Prop := forall x, strictly tr m x -> name x <> n.
(** [x] is the map found below [m]: the first of the direct submaps that has the name, in the
    order of add_submap; if none has it, the one found below the first of them that has such
    a map below. *)
Inductive finds (m : nat) : nat -> Prop :=
| finds_here a x b : subs_of tr m = a ++ x :: b -> (forall y, In y a -> name y <> n) -> name x = n -> finds m x
| finds_below a c b x : (forall y, In y (subs_of tr m) -> name y <> n) ->
    subs_of tr m = a ++ c :: b -> (forall y, In y a -> barren y) -> finds c x -> finds m x.
Inductive found (b : nat) : option nat -> Prop :=
| found_own m : own b m -> name m = n -> (forall m', own b m' -> name m' = n -> m <= m') -> found b (Some m)
| found_sub p x : (forall m', own b m' -> name m' <> n) -> own b p ->
    (forall p', own b p' -> p' < p -> barren p') -> finds p x -> found b (Some x)
| found_none : (forall m', own b m' -> name m' <> n /\ barren m') -> found b None.
End Search.
