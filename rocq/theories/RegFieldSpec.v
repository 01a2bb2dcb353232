(** What the access-policy table in the documentation of set_access says
    (uvm_reg_field.py:262-288), bit by bit, independent of the code. *)
From Coq Require Import ZArith List Bool.
From Verif Require Import RegFieldModel.
Import ListNotations.
Open Scope Z_scope.

Inductive effect :=
| Keep | AsIs | ClearAll | SetAll
| OneClears | OneSets | OneToggles | ZeroClears | ZeroSets | ZeroToggles
| FirstAsIs.

Definition write_effect (p : policy) : effect :=
  match p with
  | RO | RC | RS | NOACCESS => Keep
  | RW | WRC | WRS | WO => AsIs
  | WC | WCRS | WOC => ClearAll
  | WS | WSRC | WOS => SetAll
  | W1C | W1CRS => OneClears
  | W1S | W1SRC => OneSets
  | W1T => OneToggles
  | W0C | W0CRS => ZeroClears
  | W0S | W0SRC => ZeroSets
  | W0T => ZeroToggles
  | W1 | WO1 => FirstAsIs
  | USER _ => AsIs
  end.

(** New bit, from the old bit, the written bit, and whether the field was
    already written. *)
Definition write_bit (e : effect) (already : bool) (old w : bool) : bool :=
  match e with
  | Keep => old | AsIs => w | ClearAll => false | SetAll => true
  | OneClears => if w then false else old
  | OneSets => if w then true else old
  | OneToggles => if w then negb old else old
  | ZeroClears => if w then old else false
  | ZeroSets => if w then old else true
  | ZeroToggles => if w then old else negb old
  | FirstAsIs => if already then old else w
  end.

Inductive reffect := RNone | RClear | RSet | RUnreadable.
Definition read_effect (p : policy) : reffect :=
  match p with
  | RC | WRC | WSRC | W1SRC | W0SRC => RClear
  | RS | WRS | WCRS | W1CRS | W0CRS => RSet
  | WO | WOC | WOS | WO1 | NOACCESS => RUnreadable
  | _ => RNone
  end.
Definition read_bit (e : reffect) (old seen : bool) : bool :=
  match e with RNone => seen | RClear => false | RSet => true | RUnreadable => old end.

(** A value that fits [n] bits. *)
Definition fits_in (n v : Z) : Prop := 0 <= v < 2 ^ n.
(** Value given by its bits. *)
Definition has_bits (n v : Z) (b : Z -> bool) : Prop :=
  fits_in n v /\ forall i, 0 <= i < n -> Z.testbit v i = b i.
