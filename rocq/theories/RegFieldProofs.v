From Coq Require Import ZArith List Bool Arith Lia ZifyBool ZifyNat.
From Verif Require Import RegFieldModel RegFieldSpec.
Import ListNotations.
Open Scope Z_scope.

Definition FInv (f : field) : Prop :=
  0 < size f /\ fits_in (size f) (mirrored f) /\ fits_in (size f) (desired f) /\
  forall k v, assoc k (resets f) = Some v -> fits_in (size f) v.

Lemma mask_ones f : get_mask f = Z.ones (size f).
Proof. unfold get_mask, Z.ones. lia. Qed.

Lemma fits_bits n v : 0 <= n -> (fits_in n v <-> 0 <= v /\ forall i, n <= i -> Z.testbit v i = false).
Proof.
  intros Hn. unfold fits_in. split.
  - intros [H1 H2]. split; auto. intros i Hi.
    destruct (Z.eq_dec v 0) as [->|]; [apply Z.bits_0|].
    apply Z.bits_above_log2; auto. apply Z.log2_lt_pow2 in H2; lia.
  - intros [H1 H2]. split; auto.
    assert (v = v mod 2 ^ n) as ->.
    { apply Z.bits_inj'. intros i Hi. destruct (Z.lt_ge_cases i n).
      - now rewrite Z.mod_pow2_bits_low.
      - rewrite Z.mod_pow2_bits_high by lia. now apply H2. }
    apply Z.mod_pos_bound. apply Z.pow_pos_nonneg; lia.
Qed.

Lemma fits_land_mask n v : 0 <= n -> fits_in n (Z.land v (Z.ones n)).
Proof. intros H. rewrite Z.land_ones by auto. apply Z.mod_pos_bound. apply Z.pow_pos_nonneg; lia. Qed.

Lemma fits_mask n : 0 <= n -> fits_in n (Z.ones n).
Proof. intros H. unfold fits_in. rewrite Z.ones_equiv. pose proof (Z.pow_pos_nonneg 2 n). lia. Qed.

Lemma fits_0 n : 0 <= n -> fits_in n 0.
Proof. intros H. unfold fits_in. pose proof (Z.pow_pos_nonneg 2 n). lia. Qed.

Lemma fits_land n a b : 0 <= n -> fits_in n a -> fits_in n (Z.land a b).
Proof.
  intros Hn. rewrite !fits_bits by auto. intros [H1 H2]. split.
  - apply Z.land_nonneg. auto.
  - intros i Hi. rewrite Z.land_spec, H2 by auto. reflexivity.
Qed.
Lemma fits_lor n a b : 0 <= n -> fits_in n a -> fits_in n b -> fits_in n (Z.lor a b).
Proof.
  intros Hn. rewrite !fits_bits by auto. intros [H1 H2] [H3 H4]. split.
  - apply Z.lor_nonneg. auto.
  - intros i Hi. rewrite Z.lor_spec, H2, H4 by auto. reflexivity.
Qed.
Lemma fits_lxor n a b : 0 <= n -> fits_in n a -> fits_in n b -> fits_in n (Z.lxor a b).
Proof.
  intros Hn. rewrite !fits_bits by auto. intros [H1 H2] [H3 H4]. split.
  - apply Z.lxor_nonneg. tauto.
  - intros i Hi. rewrite Z.lxor_spec, H2, H4 by auto. reflexivity.
Qed.

Lemma set_clip f v : 0 < size f ->
  (if Z.shiftr v (size f) =? 0 then v else Z.land v (Z.ones (size f))) = Z.land v (Z.ones (size f)).
Proof.
  intros Hs. destruct (Z.shiftr v (size f) =? 0) eqn:E; auto.
  rewrite Z.land_ones by lia. symmetry. apply Z.mod_small.
  rewrite Z.shiftr_div_pow2 in E by lia. pose proof (Z.pow_pos_nonneg 2 (size f)).
  pose proof (Z.div_mod v (2 ^ size f)). pose proof (Z.mod_pos_bound v (2 ^ size f)). nia.
Qed.

Lemma set_fits f v : FInv f -> fits_in (size f) (set_value f v).
Proof.
  intros (Hs & Hm & Hd & _). unfold set_value. rewrite mask_ones. rewrite set_clip by auto.
  assert (0 <= size f) by lia.
  destruct (access f); auto using fits_land_mask, fits_mask, fits_0, fits_land, fits_lor, fits_lxor;
    destruct (written f); auto using fits_land_mask.
Qed.

Lemma predict_fits f v m : FInv f -> fits_in (size f) v -> fits_in (size f) (XpredictX f (mirrored f) v m).
Proof.
  intros (Hs & Hm & Hd & _) Hv. unfold XpredictX. rewrite mask_ones.
  assert (0 <= size f) by lia.
  destruct (get_access f m); auto using fits_land_mask, fits_mask, fits_0, fits_land, fits_lor, fits_lxor;
    destruct (written f); auto.
Qed.

Lemma finv_both f v : FInv f -> fits_in (size f) v -> FInv (with_both f v).
Proof. unfold FInv, with_both. cbn. intuition. Qed.

Lemma do_predict_size busy f v k p m be ok f' ok' :
  do_predict busy f v k p m be ok = Some (f', ok') ->
  size f' = size f /\ lsb f' = lsb f /\ access f' = access f /\ volatile f' = volatile f /\ resets f' = resets f.
Proof.
  unfold do_predict. destruct (Z.land 1 be =? 0); [discriminate|].
  destruct k; [| |destruct p; [destruct (is_in _ _); [|destruct (is_in _ _); [|destruct (is_in _ _)]]|]];
    intros [= <- <-]; cbn; auto.
Qed.

Lemma finv_predict busy f v k p m be ok f' ok' : FInv f ->
  do_predict busy f v k p m be ok = Some (f', ok') -> FInv f'.
Proof.
  intros HI. assert (HS := HI). destruct HS as (Hs & Hm & Hd & Hr). assert (0 <= size f) by lia.
  unfold do_predict. destruct (Z.land 1 be =? 0); [discriminate|].
  destruct k.
  - intros [= <- <-]. apply finv_both; auto. rewrite mask_ones. now apply fits_land_mask.
  - intros [= <- <-]. apply finv_both; [exact HI|]. cbn. rewrite !mask_ones. now apply fits_land_mask.
  - destruct p; [destruct (is_in _ _); [|destruct (is_in _ _); [|destruct (is_in _ _)]]|];
    intros [= <- <-]; auto; apply finv_both; auto; rewrite ?mask_ones; auto using fits_land_mask.
    now apply fits_0.
Qed.

Definition fop_ok (f : field) (o : fop) : Prop :=
  match o with FRandomize v => fits_in (size f) v | _ => True end.

Lemma fstep_size f o : size (fstep f o) = size f.
Proof.
  destruct o; cbn; auto.
  - unfold f_reset. destruct (assoc kind (resets f)); auto. destruct (Nat.eqb kind 0); auto.
  - destruct (do_predict busy f v k p m be true) as [[f' ok]|] eqn:E; auto. now apply do_predict_size in E.
Qed.

Lemma finv_step f o : FInv f -> fop_ok f o -> FInv (fstep f o).
Proof.
  intros HI HO. assert (HS := HI). destruct HS as (Hs & Hm & Hd & Hr). destruct o; cbn [fstep].
  - unfold FInv, f_set, with_desired; cbn. repeat split; auto; apply Hm || now apply set_fits || apply (Hr _ _ H).
  - unfold f_reset. destruct (assoc kind (resets f)) eqn:E; auto. specialize (Hr _ _ E) as HR.
    destruct (Nat.eqb kind 0); unfold FInv; cbn; auto.
  - unfold FInv, f_set_reset. cbn [size mirrored desired resets with_resets]. repeat split; auto; try apply Hm; try apply Hd.
    + cbn [assoc] in H. destruct (Nat.eqb k kind); [|apply (Hr _ _ H)]. injection H as <-.
      apply Z.land_nonneg. right. pose proof (fits_mask (size f)) as HF. unfold fits_in in HF.
      replace (Z.shiftl 1 (size f) - 1) with (Z.ones (size f)) by (unfold Z.ones; lia). lia.
    + cbn [assoc] in H. destruct (Nat.eqb k kind); [|apply (Hr _ _ H)]. injection H as <-.
      replace (Z.shiftl 1 (size f) - 1) with (Z.ones (size f)) by (unfold Z.ones; lia).
      apply fits_land_mask. lia.
  - destruct (do_predict busy f v k p m be true) as [[f' ok]|] eqn:E; auto. now apply finv_predict in E.
  - exact HI.
  - unfold FInv, with_desired. cbn. cbn in HO. auto.
Qed.

Definition fops_ok (f : field) (os : list fop) : Prop := Forall (fop_ok f) os.

Lemma fop_ok_size f f' o : size f = size f' -> fop_ok f o -> fop_ok f' o.
Proof. destruct o; cbn; auto. now intros ->. Qed.

Lemma finv_run os : forall f, FInv f -> fops_ok f os -> FInv (frun f os) /\ size (frun f os) = size f.
Proof.
  induction os as [|o os IH]; intros f HI HO; cbn; auto. inversion HO; subst.
  destruct (IH (fstep f o)) as [H3 H4].
  - now apply finv_step.
  - unfold fops_ok in *. eapply Forall_impl; [|eassumption]. intros o'. apply fop_ok_size. symmetry. apply fstep_size.
  - split; auto. rewrite <- (fstep_size f o). exact H4.
Qed.

Lemma finv_configure sz l acc vol r hr : 0 <= sz -> FInv (configure sz l acc vol r hr) /\
  size (configure sz l acc vol r hr) = if sz =? 0 then 1 else sz.
Proof.
  intros H. unfold configure. set (n := if sz =? 0 then 1 else sz). assert (Hn : 0 < n) by (unfold n; destruct (sz =? 0) eqn:E; lia).
  assert (HI : FInv (Field n l acc vol 0 0 false [])).
  { unfold FInv. cbn. repeat split; auto; try apply fits_0; try lia; try apply (Z.pow_pos_nonneg 2 n); try lia; try discriminate. }
  destruct hr; [|auto]. split; auto. exact (finv_step _ (FSetReset r 0) HI I).
Qed.

(** ** Predictions *)
Lemma ones_bit n i : 0 <= i < n -> Z.testbit (Z.ones n) i = true.
Proof. intros. now apply Z.ones_spec_low. Qed.

Lemma write_prediction f w m : FInv f ->
  has_bits (size f) (Z.land (XpredictX f (mirrored f) (Z.land w (get_mask f)) m) (get_mask f))
    (fun i => write_bit (write_effect (get_access f m)) (written f) (Z.testbit (mirrored f) i) (Z.testbit w i)).
Proof.
  intros HI. assert (HS := HI). destruct HS as (Hs & Hm & Hd & Hr). rewrite mask_ones. split.
  - apply fits_land_mask. lia.
  - intros i Hi. rewrite Z.land_spec, ones_bit, andb_true_r by auto. unfold XpredictX. rewrite mask_ones.
    destruct (get_access f m); cbn [write_effect write_bit]; try destruct (written f);
      repeat first [rewrite Z.land_spec | rewrite Z.lor_spec | rewrite Z.lxor_spec | rewrite Z.lnot_spec by lia
        | rewrite ones_bit by lia | rewrite Z.bits_0 | rewrite andb_true_r];
      auto;
      destruct (Z.testbit (mirrored f) i), (Z.testbit w i); reflexivity.
Qed.

Lemma is_in_In a l : is_in a l = true <-> In a l.
Proof. unfold is_in. destruct (in_dec policy_eq_dec a l); split; auto; try discriminate; tauto. Qed.

Lemma read_prediction busy f v m be ok f' ok' : FInv f ->
  do_predict busy f v PRead FrontOrPredict m be ok = Some (f', ok') ->
  (forall i, 0 <= i < size f -> Z.testbit (mirrored f') i =
     read_bit (read_effect (get_access f m)) (Z.testbit (mirrored f) i) (Z.testbit v i)) /\
  (read_effect (get_access f m) <> RUnreadable -> desired f' = mirrored f') /\
  (read_effect (get_access f m) = RUnreadable -> f' = f) /\ written f' = written f.
Proof.
  intros HI. assert (HS := HI). destruct HS as (Hs & Hm & Hd & Hr).
  unfold do_predict. destruct (Z.land 1 be =? 0); [discriminate|]. rewrite !mask_ones.
  destruct (get_access f m); cbn -[Z.ones Z.land]; intros [= <- <-]; cbn -[Z.ones Z.land];
    (repeat split; auto; try congruence); intros i Hi;
    rewrite ?Z.land_spec, ?ones_bit, ?Z.bits_0, ?andb_true_r by auto; auto.
Qed.

(** ** set then update *)
(** Relation between desired and mirrored values that set() maintains. *)
Definition reach (f : field) : Prop :=
  match write_effect (access f) with
  | Keep => desired f = mirrored f
  | OneClears | ZeroClears => Z.land (mirrored f) (desired f) = desired f
  | OneSets | ZeroSets => Z.lor (mirrored f) (desired f) = desired f
  | FirstAsIs => written f = true -> desired f = mirrored f
  | ClearAll => desired f = mirrored f \/ desired f = 0
  | SetAll => desired f = mirrored f \/ desired f = get_mask f
  | AsIs | OneToggles | ZeroToggles => True
  end.

Lemma reach_both f v : reach (with_both f v).
Proof.
  unfold reach, with_both; cbn. destruct (write_effect (access f)); auto; (apply Z.land_diag || apply Z.lor_diag).
Qed.

Ltac bitwise :=
  apply Z.bits_inj'; let i := fresh "i" in intros i ?;
  repeat (rewrite ?Z.land_spec, ?Z.lor_spec, ?Z.lxor_spec, ?Z.lnot_spec by lia).

Lemma land_absorb m d x : Z.land m d = d -> Z.land m (Z.land d x) = Z.land d x.
Proof. intros H. now rewrite Z.land_assoc, H. Qed.
Lemma lor_absorb m d x : Z.lor m d = d -> Z.lor m (Z.lor d x) = Z.lor d x.
Proof. intros H. now rewrite Z.lor_assoc, H. Qed.

Lemma reach_set f v : access f <> NOACCESS -> reach f -> reach (f_set f v).
Proof.
  intros HN. unfold reach, f_set, set_value, with_desired. cbn.
  destruct (access f) eqn:EA; cbn; auto using land_absorb, lor_absorb; try congruence.
  - destruct (written f); auto; discriminate.
  - destruct (written f); auto; discriminate.
Qed.

Lemma reach_step f o : access f <> NOACCESS ->
  (match o with FSetAccess _ | FRandomize _ => False | _ => True end) ->
  reach f -> reach (fstep f o) /\ access (fstep f o) = access f.
Proof.
  intros HN HO HR. destruct o; cbn [fstep]; try easy.
  - split; [now apply reach_set|reflexivity].
  - unfold f_reset. destruct (assoc kind (resets f)); auto. destruct (Nat.eqb kind 0); cbn.
    + split; auto. pose proof (reach_both f z) as H. unfold reach in *. cbn in *.
      destruct (write_effect (access f)); auto; discriminate.
    + split; auto. apply reach_both.
  - unfold do_predict. destruct (Z.land 1 be =? 0); auto.
    destruct k; [| |destruct p; [destruct (is_in _ _); [|destruct (is_in _ _); [|destruct (is_in _ _)]]|]];
      auto using reach_both.
Qed.

Lemma reach_run os : forall f, access f <> NOACCESS ->
  Forall (fun o => match o with FSetAccess _ | FRandomize _ => False | _ => True end) os ->
  reach f -> reach (frun f os) /\ access (frun f os) = access f.
Proof.
  induction os as [|o os IH]; intros f HN HF HR; cbn; auto. inversion HF; subst.
  destruct (reach_step f o) as [H3 H4]; auto. destruct (IH (fstep f o)) as [H5 H6]; auto; try congruence.
  split; auto. rewrite <- H4. exact H6.
Qed.

Lemma land_mask_id n v : 0 <= n -> fits_in n v -> Z.land v (Z.ones n) = v.
Proof. intros Hn H. rewrite Z.land_ones by auto. now apply Z.mod_small. Qed.

Definition data_dependent (p : policy) : Prop :=
  write_effect p <> ClearAll /\ write_effect p <> SetAll.

Lemma update_predicts f : FInv f -> reach f -> access f <> NOACCESS ->
  data_dependent (access f) \/ desired f <> mirrored f ->
  Z.land (XpredictX f (mirrored f) (XupdateX f) (Map RtRW)) (get_mask f) = desired f.
Proof.
  intros HI HR HN HD. assert (HS := HI). destruct HS as (Hs & Hm & Hd & Hr). assert (H0 : 0 <= size f) by lia.
  rewrite mask_ones. unfold XpredictX, XupdateX, reach, data_dependent, get_access in *. rewrite !mask_ones in *.
  transitivity (Z.land (desired f) (Z.ones (size f))); [|now apply land_mask_id].
  assert (HM : forall i, 0 <= i -> Z.testbit (mirrored f) i = Z.testbit (mirrored f) i && Z.testbit (Z.ones (size f)) i).
  { intros i Hi. rewrite <- Z.land_spec. now rewrite land_mask_id. }
  destruct (access f); cbn [write_effect] in HR, HD; try congruence;
    try (rewrite HR; reflexivity);
    try (destruct HD as [[HD1 HD2]|HD]; [congruence|]; destruct HR as [HR|HR]; [congruence|rewrite HR; reflexivity]).
  all: try (destruct (written f); [rewrite HR by auto; reflexivity|]).
  all: match type of HR with True => clear HR | false = true -> _ => clear HR | _ => idtac end; clear HD.
  all: bitwise; specialize (HM i H);
    try (apply (f_equal (fun x => Z.testbit x i)) in HR; rewrite ?Z.land_spec, ?Z.lor_spec in HR);
    destruct (Z.testbit (mirrored f) i), (Z.testbit (desired f) i), (Z.testbit (Z.ones (size f)) i); cbn in *; first [reflexivity | discriminate | idtac].
Qed.

(** ** write-once *)
Definition wo_op (o : fop) : Prop :=
  match o with
  | FSet _ => True
  | FPredict _ _ PWrite FrontOrPredict (Map _) _ => True
  | FReset k => k <> 0%nat
  | FSetReset _ _ => True
  | _ => False
  end.

Lemma write_once_step f o : access f = W1 \/ access f = WO1 -> FInv f -> written f = true -> desired f = mirrored f ->
  wo_op o -> (match o with FReset _ => False | _ => True end) ->
  mirrored (fstep f o) = mirrored f /\ desired (fstep f o) = desired f /\ written (fstep f o) = true.
Proof.
  intros HA HI HW HD HO HN. destruct o as [v|k|v k|busy v k p m be| |]; cbn [fstep wo_op] in *; try easy.
  - cbn. unfold set_value. destruct HA as [->| ->]; rewrite HW; auto.
  - destruct k; try easy. destruct p; try easy. destruct m as [|r]; try easy. unfold do_predict.
    destruct (Z.land 1 be =? 0); auto. cbn -[Z.land]. destruct HI as (Hs & Hm & _ & _).
    assert (HX : XpredictX f (mirrored f) (Z.land v (get_mask f)) (Map r) = mirrored f).
    { unfold XpredictX, get_access. destruct r; destruct HA as [EA|EA]; rewrite ?EA; cbn; rewrite ?HW; auto. }
    rewrite HX. rewrite mask_ones. cbn. rewrite land_mask_id by (auto; lia). auto.
Qed.
