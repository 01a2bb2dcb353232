(** Python list primitives used by the models. *)
From Coq Require Import ZArith List Bool Arith Lia.
Import ListNotations.
Open Scope Z_scope.

Section PyList.
Context {A : Type}.

Definition zlen (l : list A) : Z := Z.of_nat (length l).

(** CPython list subscript: negative indices count from the end. [None] means
    IndexError. *)
Definition py_pos (l : list A) (i : Z) : option nat :=
  if (0 <=? i) && (i <? zlen l) then Some (Z.to_nat i)
  else if (- zlen l <=? i) && (i <? 0) then Some (Z.to_nat (zlen l + i))
  else None.

Definition py_get (l : list A) (i : Z) : option A :=
  match py_pos l i with Some n => nth_error l n | None => None end.

Definition set_nth (l : list A) (n : nat) (x : A) : list A :=
  firstn n l ++ x :: skipn (S n) l.

Definition del_nth (l : list A) (n : nat) : list A :=
  firstn n l ++ skipn (S n) l.

Definition ins_nth (l : list A) (n : nat) (x : A) : list A :=
  firstn n l ++ x :: skipn n l.

(** [l[i] = x] *)
Definition py_set (l : list A) (i : Z) (x : A) : option (list A) :=
  match py_pos l i with Some n => Some (set_nth l n x) | None => None end.

(** [del l[i]] / [l.pop(i)] *)
Definition py_del (l : list A) (i : Z) : option (list A) :=
  match py_pos l i with Some n => Some (del_nth l n) | None => None end.

(** [l.insert(i, x)]: clamps instead of failing. *)
Definition py_insert (l : list A) (i : Z) (x : A) : list A :=
  let n := if i <? 0 then Z.to_nat (Z.max 0 (zlen l + i))
           else Nat.min (Z.to_nat i) (length l) in
  ins_nth l n x.

(** Lemmas *)
Lemma py_pos_nonneg l i : 0 <= i -> py_pos l i = if i <? zlen l then Some (Z.to_nat i) else None.
Proof.
  intros H. unfold py_pos. destruct (0 <=? i) eqn:E; [|lia]. cbn.
  destruct (i <? zlen l) eqn:E2; auto.
  destruct (- zlen l <=? i) eqn:E3, (i <? 0) eqn:E4; cbn; auto. lia.
Qed.

Lemma py_pos_bound l i n : py_pos l i = Some n -> (n < length l)%nat.
Proof.
  unfold py_pos, zlen. destruct (_ && _) eqn:E.
  - intros [= <-]. lia.
  - clear E. destruct (_ && _) eqn:E; intros [= <-]. lia.
Qed.

Lemma set_nth_length l n x : (n < length l)%nat -> length (set_nth l n x) = length l.
Proof.
  intros H. unfold set_nth. rewrite app_length, firstn_length. cbn [length].
  rewrite skipn_length. lia.
Qed.

Lemma nth_error_firstn_lt (l : list A) n j : (j < n)%nat -> nth_error (firstn n l) j = nth_error l j.
Proof.
  revert l j. induction n as [|n IH]; intros l j H; [lia|].
  destruct l as [|a l]; cbn; auto. destruct j; cbn; auto. apply IH. lia.
Qed.

Lemma nth_error_skipn (l : list A) n j : nth_error (skipn n l) j = nth_error l (n + j).
Proof.
  revert l. induction n as [|n IH]; intros l; cbn; auto.
  destruct l as [|a l]; cbn; auto. now destruct j.
Qed.

Lemma set_nth_nth l n x j : (n < length l)%nat ->
  nth_error (set_nth l n x) j = if Nat.eqb j n then Some x else nth_error l j.
Proof.
  intros H. unfold set_nth.
  assert (Hl : length (firstn n l) = n) by (rewrite firstn_length; lia).
  destruct (lt_eq_lt_dec j n) as [[L|E]|G].
  - rewrite nth_error_app1 by lia. rewrite nth_error_firstn_lt by lia.
    destruct (Nat.eqb_spec j n); auto. lia.
  - subst j. rewrite nth_error_app2 by lia. rewrite Hl, Nat.sub_diag, Nat.eqb_refl. auto.
  - rewrite nth_error_app2 by lia. rewrite Hl. destruct (Nat.eqb_spec j n); [lia|].
    destruct (j - n)%nat as [|k] eqn:E; [lia|]. cbn [nth_error].
    rewrite nth_error_skipn. f_equal. lia.
Qed.

Lemma del_nth_length l n : (n < length l)%nat -> S (length (del_nth l n)) = length l.
Proof.
  intros H. unfold del_nth. rewrite app_length, firstn_length, skipn_length. lia.
Qed.

Lemma del_nth_nth l n j : (n < length l)%nat ->
  nth_error (del_nth l n) j = if Nat.ltb j n then nth_error l j else nth_error l (S j).
Proof.
  intros H. unfold del_nth.
  assert (Hl : length (firstn n l) = n) by (rewrite firstn_length; lia).
  destruct (Nat.ltb_spec j n).
  - rewrite nth_error_app1 by lia. now rewrite nth_error_firstn_lt by lia.
  - rewrite nth_error_app2 by lia. rewrite Hl, nth_error_skipn. f_equal. lia.
Qed.

Lemma ins_nth_length l n x : length (ins_nth l n x) = S (length l).
Proof.
  unfold ins_nth. rewrite app_length, firstn_length. cbn. rewrite skipn_length. lia.
Qed.

Lemma ins_nth_nth l n x j : (n <= length l)%nat ->
  nth_error (ins_nth l n x) j =
  if Nat.ltb j n then nth_error l j
  else if Nat.eqb j n then Some x else nth_error l (j - 1).
Proof.
  intros H. unfold ins_nth.
  assert (Hl : length (firstn n l) = n) by (rewrite firstn_length; lia).
  destruct (Nat.ltb_spec j n).
  - rewrite nth_error_app1 by lia. now rewrite nth_error_firstn_lt by lia.
  - rewrite nth_error_app2 by lia. rewrite Hl. destruct (Nat.eqb_spec j n).
    + subst. now rewrite Nat.sub_diag.
    + destruct (j - n)%nat as [|k] eqn:E; [lia|]. cbn [nth_error].
      rewrite nth_error_skipn. f_equal. lia.
Qed.

Lemma nth_error_ext (l1 l2 : list A) : (forall j, nth_error l1 j = nth_error l2 j) -> l1 = l2.
Proof.
  revert l2. induction l1 as [|a l1 IH]; intros [|b l2] H; auto.
  - now specialize (H 0%nat).
  - now specialize (H 0%nat).
  - f_equal.
    + specialize (H 0%nat). now injection H.
    + apply IH. intros j. exact (H (S j)).
Qed.

End PyList.
