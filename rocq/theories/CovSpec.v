(** What is present and what is on, in terms of the calls made. *)
From Coq Require Import List Bool Arith ZArith.
From Verif Require Import CovModel.
Import ListNotations.

(** blocks, registers and memories of a block, itself included *)
Inductive within : nat -> tree -> Prop :=
| within_self b rs ms bs : within b (Block b rs ms bs)
| within_reg e b rs ms bs : In e rs -> within e (Block b rs ms bs)
| within_mem e b rs ms bs : In e ms -> within e (Block b rs ms bs)
| within_blk e b rs ms bs t : In t bs -> within e t -> within e (Block b rs ms bs).

(** [c] switches the models [m] of [e] *)
Definition switches (c : call) (e : nat) (m : Z) : Prop :=
  match c with
  | SetElement e' m' => e' = e /\ m' = m
  | SetBlock t m' => within e t /\ m' = m
  | _ => False
  end.
(** [c] concerns the switches of [e]: switching them or creating [e] *)
Definition concerns (c : call) (e : nat) : Prop :=
  match c with
  | New e' _ => e' = e
  | SetElement e' _ => e' = e
  | SetBlock t _ => within e t
  | AddCoverage _ _ => False
  end.

(** Model [i] is present in [e] after [cs]: created with it or added since *)
Definition present (cs : list call) (e : nat) (i : Z) : Prop :=
  exists c1 c c2 m, cs = c1 ++ c :: c2 /\ (c = New e m \/ c = AddCoverage e m) /\ Z.testbit m i = true /\
    forall m', ~ In (New e m') c2.
(** Model [i] of [e] is on after [cs]: the last call that concerned its switches asked for
    it, when it was present. *)
Definition is_on (cs : list call) (e : nat) (i : Z) : Prop :=
  exists c1 c c2 m, cs = c1 ++ c :: c2 /\ switches c e m /\ Z.testbit m i = true /\ present c1 e i /\
    forall c', In c' c2 -> ~ concerns c' e.
