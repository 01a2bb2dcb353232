(** Specification of packed streams as lists of bits. *)
From Coq Require Import ZArith List Bool Arith.
Import ListNotations.
Open Scope Z_scope.

(** The [size] low bits of [v], least significant first. *)
Definition low_bits (size v : Z) : list bool :=
  map (fun i => Z.testbit v (Z.of_nat i)) (seq 0 (Z.to_nat size)).
(** A field in the stream: least significant bit first (little endian) or most
    significant bit first (big endian). *)
Definition field_bits (big : bool) (size v : Z) : list bool :=
  if big then rev (low_bits size v) else low_bits size v.
(** Stream of a sequence of (size, value) fields. *)
Definition stream (big : bool) (fs : list (Z * Z)) : list bool :=
  flat_map (fun f => field_bits big (fst f) (snd f)) fs.
(** The number whose bit [i] is the [i]-th of the list. *)
Definition is_stream (l : list bool) (n : Z) : Prop :=
  forall i, 0 <= i -> Z.testbit n i = nth (Z.to_nat i) l false.
(** Value fits its size; a big-endian field has at least one bit. *)
Definition fits (big : bool) (f : Z * Z) : Prop :=
  0 <= snd f < 2 ^ fst f /\ (if big then 0 < fst f else 0 <= fst f).
Definition total (fs : list (Z * Z)) : Z := fold_right (fun f n => fst f + n) 0 fs.
