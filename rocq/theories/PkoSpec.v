(** Specification of packing an object: its int fields in order. *)
From Coq Require Import ZArith List Bool Arith.
From Verif Require Import PkoModel.
Import ListNotations.
Local Open Scope nat_scope.

(** [walk h o fs L]: the packed fields [fs] of [o] are ints and objects, and [L] are the places of
    the ints, going into the objects; no object lies below itself. *)
Inductive walk (h : heap) (o : nat) : list (nat * bool) -> list (nat * nat) -> Prop :=
| w_nil : walk h o [] []
| w_skip f fs L : walk h o fs L -> walk h o ((f, false) :: fs) L
| w_int f z fs L : att (h o) f = VInt z -> walk h o fs L -> walk h o ((f, true) :: fs) ((o, f) :: L)
| w_obj f c fs L1 L2 : att (h o) f = VObj c -> walk h c (flds (h c)) L1 -> walk h o fs L2 ->
    walk h o ((f, true) :: fs) (L1 ++ L2).
Definition ints (h : heap) (o : nat) (L : list (nat * nat)) : Prop := walk h o (flds (h o)) L.
(** the values there *)
Definition int_at (h : heap) (l : nat * nat) : Z := match att (h (fst l)) (snd l) with VInt z => z | _ => 0%Z end.
Definition values (h : heap) (L : list (nat * nat)) : list Z := map (int_at h) L.

(** [below h o c]: [c] is reached from [o] through one or more packed object fields. *)
Inductive below (h : heap) (o : nat) : nat -> Prop :=
| b_one f c : In (f, true) (flds (h o)) -> att (h o) f = VObj c -> below h o c
| b_more f c d : In (f, true) (flds (h o)) -> att (h o) f = VObj c -> below h c d -> below h o d.

(** A value that fits 32 bits *)
Definition word (z : Z) : Prop := (0 <= z < 2 ^ 32)%Z.
(** Bits of a word in the order of the stream *)
Definition word_bit (big : bool) (z : Z) (j : Z) : bool := Z.testbit z (if big then 31 - j else j).
(** [is_bits big l m]: the number [m] holds the words [l] one after the other. *)
Definition is_bits (big : bool) (l : list Z) (m : Z) : Prop :=
  (0 <= m < 2 ^ (32 * Z.of_nat (length l)))%Z /\
  forall i z j, nth_error l i = Some z -> (0 <= j < 32)%Z -> Z.testbit m (32 * Z.of_nat i + j) = word_bit big z j.

(** The same contents *)
Definition heq (h h' : heap) : Prop := forall o, flds (h o) = flds (h' o) /\ forall f, att (h o) f = att (h' o) f.
(** [vs] written to the places [L], in order *)
Fixpoint fill (h : heap) (L : list (nat * nat)) (vs : list Z) : heap :=
  match L, vs with
  | (o, f) :: L, v :: vs => fill (set h o f (VInt v)) L vs
  | _, _ => h
  end.

(** Ints one after the other, each 32 bits further on, combined by or *)
Fixpoint lor_all (l : list Z) : Z := match l with [] => 0%Z | z :: l => Z.lor z (Z.shiftl (lor_all l) 32%Z) end.

(** The [i]-th word keeps its value: its last bit in the stream is set or a later word is not 0. *)
Definition survives (big : bool) (l : list Z) (i : nat) : Prop :=
  (exists z, nth_error l i = Some z /\ word_bit big z 31%Z = true) \/
  (exists k z, (i < k)%nat /\ nth_error l k = Some z /\ z <> 0%Z).

(** A field that cannot be packed, and the objects entered, innermost first, on the way there *)
Definition offending (big : bool) (v : val) : Prop :=
  v = VBad \/ v = VStr [] \/ (big = true /\ exists z, v = VInt z /\ (2 ^ 32 <= z)%Z).
Inductive stops (h : heap) (big : bool) (o : nat) : list nat -> Prop :=
| s_here f : In (f, true) (flds (h o)) -> offending big (att (h o) f) -> stops h big o []
| s_down f c path : In (f, true) (flds (h o)) -> att (h o) f = VObj c -> stops h big c path -> stops h big o (path ++ [c]).

(** A set of objects that contains all objects reached from it *)
Definition closed (h : heap) (dom : list nat) : Prop :=
  forall o f c, In o dom -> In (f, true) (flds (h o)) -> att (h o) f = VObj c -> In c dom.
