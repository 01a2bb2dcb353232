(** What memory accesses and the memory test sequences should do. *)
From Coq Require Import ZArith List Bool Arith.
From Verif Require Import RegMapModel MemModel.
Import ListNotations.
Open Scope Z_scope.

(** A faulty memory of [n]-bit cells: the cell an address reaches and, per cell, the bits
    stuck at zero and at one. *)
Record faults := Faults { cell : Z -> Z; stuck0 : Z -> Z -> Prop; stuck1 : Z -> Z -> Prop }.
(** [s] is what the cell keeps of [v]. *)
Definition kept (F : faults) (n c v s : Z) : Prop :=
  0 <= s /\ forall i, 0 <= i ->
    (Z.testbit s i = true <-> i < n /\ (stuck1 F c i \/ Z.testbit v i = true /\ ~ stuck0 F c i)).
Definition consistent (F : faults) : Prop := forall c i, ~ (stuck0 F c i /\ stuck1 F c i).
(** A device behaving like this memory. *)
Definition behaves (F : faults) (n : Z) (wr : (Z -> Z) -> Z -> Z -> (Z -> Z) * status)
    (rd : (Z -> Z) -> Z -> Z * status) : Prop :=
  (forall d k v, exists s, kept F n (cell F k) v s /\ wr d k v = (setz d (cell F k) s, IS_OK)) /\
  (forall d k, rd d k = (d (cell F k), IS_OK)).
(** A back door that reaches the cells [b] of this memory. *)
Definition back_door (F : faults) (n : Z) (b : Z -> Z) (pk : (Z -> Z) -> Z -> Z) 
    (po : (Z -> Z) -> Z -> Z -> Z -> Z) : Prop :=
  (forall d k, pk d k = d (b k)) /\
  (forall d k v, exists s, kept F n (b k) v s /\ po d k v = setz d (b k) s).
(** Every stuck bit of the cells of addresses below [size] has the complement of the
    address bit. *)
Definition stuck_like_complement (F : faults) (n size : Z) : Prop :=
  forall k i, 0 <= k < size -> 0 <= i < n ->
    (stuck0 F (cell F k) i -> Z.testbit k i = true) /\ (stuck1 F (cell F k) i -> Z.testbit k i = false).

(** Ranges of addresses *)
Definition meets (a b : Z * Z) : Prop := exists x, fst a <= x <= snd a /\ fst b <= x <= snd b.
Fixpoint apart (l : list (Z * Z)) : Prop :=
  match l with [] => True | a :: l' => (forall b, In b l' -> ~ meets a b) /\ apart l' end.
