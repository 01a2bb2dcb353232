From Coq Require Import ZArith List Bool Sorted.
From Verif Require Import RegFieldModel RegFieldSpec.
Import ListNotations.
Open Scope Z_scope.

(** Register bit [i] belongs to field [f]. *)
Definition covers (f : field) (i : Z) : Prop := lsb f <= i < lsb f + size f.
Definition disjoint (f g : field) : Prop := forall i, ~ (covers f i /\ covers g i).
Definition pairwise_disjoint (fs : list field) : Prop := ForallOrdPairs disjoint fs.
Definition in_order (fs : list field) : Prop := StronglySorted (fun f g => lsb f <= lsb g) fs.

(** A well-formed layout: fields of positive size at non-negative positions
    within [n] bits, not overlapping. *)
Definition layout (n : Z) (fs : list field) : Prop :=
  Forall (fun f => 0 < size f /\ 0 <= lsb f /\ lsb f + size f <= n) fs /\ pairwise_disjoint fs.

(** [v] is the composition of the values [g f] of the fields. *)
Definition composed_of (v : Z) (g : field -> Z) (fs : list field) : Prop :=
  0 <= v /\
  (forall f i, In f fs -> covers f i -> Z.testbit v i = Z.testbit (g f) (i - lsb f)) /\
  (forall i, 0 <= i -> (forall f, In f fs -> ~ covers f i) -> Z.testbit v i = false).
