(** What users of the register map may expect, stated without the model's
    computations. *)
From Coq Require Import ZArith List Bool Arith Lia Permutation.
From Verif Require Import RegFieldModel RegModel RegMapModel.
Import ListNotations.
Open Scope Z_scope.

(** [q] is the number of [w]-byte words needed for [n] bytes. *)
Definition needs_words (n w q : Z) : Prop := (q - 1) * w < n <= q * w.

(** [y] is a local address of the register of [n] bytes at offset [base] in the
    map [l]. *)
Definition word_of (l : level) (base n y : Z) : Prop :=
  exists q i, needs_words n (lw l) q /\ 0 <= i < q /\ y = base + i * mult l.

(** [x] is one of the system addresses behind the local address [y] of the
    innermost map of the chain. *)
Fixpoint lifted (l : level) (up : list level) (y x : Z) : Prop :=
  match up with
  | [] => x = y + loff l
  | u :: up' =>
      exists k z, (needs_words (lw l) (lw u) k) /\
        word_of u (loff l + y * k) (lw l) z /\ lifted u up' z x
  end.
Definition address_of (l : level) (up : list level) (base n x : Z) : Prop :=
  exists y, word_of l base n y /\ lifted l up y x.

(** Maps in use: positive width and an addressing endianness. *)
Definition usable (l : level) : Prop :=
  0 < lw l /\ (lend l = LITTLE_ENDIAN \/ lend l = BIG_ENDIAN).

(** Hierarchies addressed uniformly: all in words, or all in bytes with no map
    inside a wider one. *)
Definition word_addressed (chain : list level) : Prop :=
  Forall (fun l => lbyte l = false) chain.
Fixpoint not_wider (l : level) (up : list level) : Prop :=
  match up with [] => True | u :: up' => lw u <= lw l /\ not_wider u up' end.
Definition uniform (l : level) (up : list level) : Prop :=
  word_addressed (l :: up) \/
  (Forall (fun l => lbyte l = true) (l :: up) /\ not_wider l up).

(** At most the two outermost maps split an access into several words. *)
Fixpoint splits_at_top (l : level) (up : list level) (n : Z) : Prop :=
  match up with
  | [] => True
  | u :: up' =>
      match up' with
      | [] => True
      | _ => n <= lw l /\ splits_at_top u up' (lw l)
      end
  end.

(** The offsets a register occupies in its own map. *)
Definition occupies (l : level) (base n o : Z) : Prop :=
  exists q, needs_words n (lw l) q /\ base <= o < base + q * mult l.

(** Total width of a chain: the narrowest bus on the way. *)
Definition narrowest (chain : list level) (w : Z) : Prop :=
  (exists l, In l chain /\ lw l = w) /\ Forall (fun l => w <= lw l) chain.

(** ** Lookup *)
(** [r] answers at address [a] in the initialised map. *)
Definition mapped_at (es : list entry) (r : nat) (a : Z) : Prop :=
  exists addrs, In (r, addrs) es /\ In a addrs.
