(** What the built-in register tests should tell. *)
From Coq Require Import ZArith List Bool Arith.
From Verif Require Import RegFieldModel RegFieldSpec RegModel RegSpec RegSeqModel.
Import ListNotations.
Open Scope Z_scope.

(** A design that implements the access policies of the fields [fs]: [bits d] are the register's
    bits, [done d] whether it has been written. Nothing is said about what is read from
    unreadable fields, and bits outside of the fields read 0. *)
Record implements {D : Type} (fs : list field) (wr : D -> via -> Z -> D * bool) (rd : D -> via -> D * Z * bool)
    (bits : D -> Z -> bool) (done : D -> bool) : Prop := Implements {
  i_wok : forall d m v, snd (wr d m v) = true;
  i_rok : forall d m, snd (rd d m) = true;
  i_write : forall d m v f i, In f fs -> covers f i ->
    bits (fst (wr d m v)) i = write_bit (write_effect (get_access f m)) (done d) (bits d i) (Z.testbit v i);
  i_wdone : forall d v, done (fst (wr d (Map RtRW) v)) = true;
  i_seen : forall d m f i, In f fs -> covers f i -> read_effect (get_access f m) <> RUnreadable ->
    Z.testbit (snd (fst (rd d m))) i = bits d i;
  i_unused : forall d m i, 0 <= i -> (forall f, In f fs -> ~ covers f i) -> Z.testbit (snd (fst (rd d m))) i = false;
  i_after : forall d m f i, In f fs -> covers f i ->
    bits (fst (fst (rd d m))) i = read_bit (read_effect (get_access f m)) (bits d i) (bits d i);
  i_rdone : forall d m, done (fst (fst (rd d m))) = done d
}.
Definition write_once (p : policy) : Prop := p = W1 \/ p = WO1.
(** The register model knows what the design holds. *)
Definition in_sync {D} (bits : D -> Z -> bool) (done : D -> bool) (fs : list field) (d : D) : Prop :=
  forall f, In f fs -> desired f = mirrored f /\ (write_once (access f) -> written f = done d) /\
    forall i, covers f i -> Z.testbit (mirrored f) (i - lsb f) = bits d i.

(** ** Blocks *)
(** [below b cs x]: [x] is the block reached from [b] by going down through the blocks [cs], [x] last *)
Inductive down : blk -> list blk -> blk -> Prop :=
| down_here b : down b [] b
| down_step b c cs x : In c (subs b) -> down c cs x -> down b (c :: cs) x.
Fixpoint ids (b : blk) : list nat :=
  let 'Blk i _ _ s := b in i :: (fix go (l : list blk) : list nat := match l with [] => [] | c :: l => ids c ++ go l end) s.
Fixpoint height (b : blk) : nat :=
  let 'Blk _ _ _ s := b in S ((fix go (l : list blk) : nat := match l with [] => O | c :: l => Nat.max (height c) (go l) end) s).
Fixpoint prod (l : list nat) : nat := match l with [] => 1%nat | n :: l => (n * prod l)%nat end.
(** maps before the first one with submaps *)
Fixpoint leading (l : list bool) : nat := match l with false :: l => S (leading l) | _ => O end.

(** ** Designs with read/write fields *)
(** The bits of [v] that belong to fields *)
Fixpoint keep (fs : list field) (v : Z) : Z :=
  match fs with
  | [] => 0
  | f :: fs => Z.lor (Z.land v (Z.shiftl (Z.ones (size f)) (lsb f))) (keep fs v)
  end.
(** The design keeps what was last written, and reading gives [F] of it. *)
Definition echo_wr (d : Z) (m : via) (v : Z) : Z * bool := (v, true).
Definition echo_rd (F : Z -> Z) (d : Z) (m : via) : Z * Z * bool := (d, F d, true).
(** Every bit read is a written bit or a constant. *)
Definition wired (F : Z -> Z) : Prop :=
  exists (from : Z -> option Z) (const : Z -> bool),
    forall v i, 0 <= i -> Z.testbit (F v) i = match from i with Some j => Z.testbit v j | None => const i end.
