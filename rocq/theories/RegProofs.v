From Coq Require Import ZArith List Bool Arith Lia ZifyBool ZifyNat Sorted Permutation.
From Verif Require Import RegFieldModel RegFieldSpec RegFieldProofs RegModel RegSpec.
Import ListNotations.
Open Scope Z_scope.

(** ** add_field *)
Lemma insert_loop_spec f l : forall i,
  match insert_loop f i l with
  | Some (l', k) => exists a g b, l = a ++ g :: b /\ l' = a ++ f :: g :: b /\ k = i + Z.of_nat (length a) /\
      Forall (fun g => lsb g <= lsb f) a /\ lsb f < lsb g
  | None => Forall (fun g => lsb g <= lsb f) l
  end.
Proof.
  induction l as [|g l IH]; intros i; cbn [insert_loop]; [constructor|].
  destruct (lsb f <? lsb g) eqn:E.
  - exists [], g, l. cbn. repeat split; auto; lia.
  - specialize (IH (i + 1)). destruct (insert_loop f (i + 1) l) as [[l' k]|].
    + destruct IH as (a & x & b & -> & -> & -> & H1 & H2). exists (g :: a), x, b. cbn [app length].
      repeat split; auto; try lia. constructor; auto. lia.
    + constructor; auto. lia.
Qed.

(** The new field list: [a] before, [b] after. *)
Lemma add_field_split r f : locked r = false ->
  exists a b e1, fields r = a ++ b /\
    Forall (fun g => lsb g <= lsb f) a /\ (match b with [] => True | g :: _ => lsb f < lsb g end) /\
    add_field r f = (Reg (n_bits r) (n_used r + size f) false (busy r) (a ++ f :: b),
      e1 ++ (match rev a with [] => [] | g :: _ => if lsb f <? lsb g + size g then [EOverlap] else [] end)
         ++ (match b with [] => [] | g :: _ => if lsb g <? lsb f + size f then [EOverlap] else [] end)) /\
    e1 = if n_bits r <? n_used r + size f then [EBits] else [].
Proof.
  intros HL. unfold add_field. rewrite HL. pose proof (insert_loop_spec f (fields r) 0) as H.
  assert (HB : forall a b, (if 0 <? Z.of_nat (length a)
      then match nthz (a ++ f :: b) (Z.of_nat (length a) - 1) with
           | Some g => if lsb f <? lsb g + size g then [EOverlap] else [] | None => [] end else [])
      = match rev a with [] => [] | g :: _ => if lsb f <? lsb g + size g then [EOverlap] else [] end).
  { intros a b. destruct a as [|x a] using rev_ind; auto. rewrite rev_app_distr. cbn [rev app].
    rewrite app_length. cbn [length]. replace (0 <? Z.of_nat (length a + 1)) with true by lia.
    unfold nthz. replace (Z.of_nat (length a + 1) - 1 <? 0) with false by lia.
    replace (Z.to_nat (Z.of_nat (length a + 1) - 1)) with (length a) by lia.
    rewrite <- app_assoc. rewrite nth_error_app2, Nat.sub_diag by auto. reflexivity. }
  assert (HA : forall a b, (if Z.of_nat (length a) <? Z.of_nat (length (a ++ f :: b)) - 1
      then match nthz (a ++ f :: b) (Z.of_nat (length a) + 1) with
           | Some g => if lsb g <? lsb f + size f then [EOverlap] else [] | None => [] end else [])
      = match b with [] => [] | g :: _ => if lsb g <? lsb f + size f then [EOverlap] else [] end).
  { intros a b. rewrite app_length. cbn [length]. destruct b as [|g b].
    - replace (_ <? _) with false by (cbn; lia). reflexivity.
    - replace (_ <? _) with true by (cbn; lia). unfold nthz.
      replace (Z.of_nat (length a) + 1 <? 0) with false by lia.
      replace (Z.to_nat (Z.of_nat (length a) + 1)) with (length a + 1)%nat by lia.
      rewrite nth_error_app2 by lia. replace (length a + 1 - length a)%nat with 1%nat by lia. reflexivity. }
  destruct (insert_loop f 0 (fields r)) as [[l' k]|].
  - destruct H as (a & g & b & E1 & -> & -> & H1 & H2). exists a, (g :: b). eexists.
    repeat split; auto. rewrite Z.add_0_l. rewrite HB, HA. reflexivity.
  - exists (fields r), []. eexists. repeat split; auto; [now rewrite app_nil_r|]. rewrite HB, HA. reflexivity.
Qed.

Definition RInv (r : reg) (fs : list field) : Prop :=
  locked r = false /\ Permutation (fields r) fs /\ in_order (fields r) /\
  n_used r = fold_right (fun f a => size f + a) 0 fs.

Lemma sorted_app_inv {A} (R : A -> A -> Prop) a b : StronglySorted R (a ++ b) ->
  StronglySorted R a /\ StronglySorted R b /\ Forall (fun x => Forall (R x) b) a.
Proof.
  induction a as [|x a IH]; cbn; intros H.
  - repeat split; auto; constructor.
  - inversion H as [|? ? H1 H2]; subst. destruct (IH H1) as (H3 & H4 & H5). apply Forall_app in H2.
    destruct H2. repeat split; auto; constructor; auto.
Qed.
Lemma sorted_app {A} (R : A -> A -> Prop) a b : StronglySorted R a -> StronglySorted R b ->
  Forall (fun x => Forall (R x) b) a -> StronglySorted R (a ++ b).
Proof.
  induction a as [|x a IH]; cbn; intros H1 H2 H3; auto. inversion H1; subst. inversion H3; subst.
  constructor; auto. apply Forall_app. auto.
Qed.

Lemma in_order_insert a b f : in_order (a ++ b) -> Forall (fun g => lsb g <= lsb f) a ->
  (match b with [] => True | g :: _ => lsb f < lsb g end) -> in_order (a ++ f :: b).
Proof.
  intros H1 H2 H3. apply sorted_app_inv in H1. destruct H1 as (Ha & Hb & Hab).
  apply sorted_app; auto.
  - constructor; auto. destruct b as [|g b]; constructor; [lia|]. inversion Hb; subst.
    eapply Forall_impl; [|eassumption]. cbn; intros; lia.
  - rewrite Forall_forall in *. intros x Hx. constructor; auto.
Qed.

Lemma add_field_inv r fs f : RInv r fs -> RInv (fst (add_field r f)) (fs ++ [f]).
Proof.
  intros (HL & HP & HS & HU). destruct (add_field_split r f HL) as (a & b & e1 & E1 & H1 & H2 & -> & _).
  unfold RInv. cbn. repeat split; auto.
  - rewrite E1 in HP. rewrite <- HP. rewrite <- app_assoc. apply Permutation_app_head.
    apply Permutation_cons_append.
  - apply in_order_insert; auto. now rewrite <- E1.
  - rewrite HU. clear. induction fs; cbn; lia.
Qed.

(** Pairwise disjoint, sorted fields of positive size. *)
Definition chain (fs : list field) : Prop := StronglySorted (fun f g => lsb f + size f <= lsb g) fs.

Lemma chain_insert a b f : chain (a ++ b) -> 0 < size f -> Forall (fun g => 0 < size g) (a ++ b) ->
  (match rev a with [] => True | g :: _ => lsb g + size g <= lsb f end) ->
  (match b with [] => True | g :: _ => lsb f + size f <= lsb g end) -> chain (a ++ f :: b).
Proof.
  intros H1 Hf Hp Ha Hb. apply sorted_app_inv in H1. destruct H1 as (Sa & Sb & Sab).
  apply Forall_app in Hp. destruct Hp as [Pa Pb].
  assert (HAF : Forall (fun g => lsb g + size g <= lsb f) a).
  { destruct a as [|x a _] using rev_ind; [constructor|]. rewrite rev_app_distr in Ha. cbn in Ha.
    apply Forall_app. split; [|constructor; auto]. apply sorted_app_inv in Sa. destruct Sa as (_ & _ & Sx).
    apply Forall_app in Pa. destruct Pa as [_ Px].
    eapply Forall_impl; [|exact Sx]. intros g Hg. apply Forall_inv in Hg. apply Forall_inv in Px. cbn in *. lia. }
  assert (HFB : Forall (fun g => lsb f + size f <= lsb g) b).
  { destruct b as [|g b]; constructor; auto. inversion Sb as [|? ? Sb1 Sb2]; subst. inversion Pb; subst.
    eapply Forall_impl; [|exact Sb2]. cbn; intros; lia. }
  apply sorted_app; auto.
  - constructor; auto.
  - rewrite Forall_forall in *. intros x Hx. constructor; auto.
Qed.

Lemma add_field_chain r f r' : locked r = false -> Forall (fun g => 0 < size g) (fields r) -> 0 < size f ->
  chain (fields r) -> add_field r f = (r', []) ->
  chain (fields r') /\ Forall (fun g => 0 < size g) (fields r') /\ locked r' = false /\ n_used r' <= n_bits r'
  /\ n_bits r' = n_bits r.
Proof.
  intros HL HP Hf HC HA. destruct (add_field_split r f HL) as (a & b & e1 & E1 & H1 & H2 & E2 & E3).
  rewrite HA in E2. injection E2 as -> HE. symmetry in HE. apply app_eq_nil in HE. destruct HE as [-> HE].
  apply app_eq_nil in HE. destruct HE as [HE1 HE2]. cbn. rewrite E1 in *. repeat split; auto.
  - apply chain_insert; auto.
    + destruct (rev a) as [|g t]; auto. destruct (lsb f <? lsb g + size g) eqn:E; [discriminate|]. lia.
    + destruct b as [|g t]; auto. destruct (lsb g <? lsb f + size f) eqn:E; [discriminate|]. lia.
  - apply Forall_app in HP. apply Forall_app. destruct HP. auto.
  - destruct (n_bits r <? n_used r + size f) eqn:E; [discriminate|]. lia.
Qed.

Lemma chain_disjoint fs : chain fs -> pairwise_disjoint fs.
Proof.
  induction 1 as [|f fs HS IH HF]; constructor; auto. eapply Forall_impl; [|exact HF].
  intros g Hg i [H1 H2]. unfold covers in *. cbn in *. lia.
Qed.

Lemma add_fields_inv fs : forall r done, RInv r done -> RInv (fst (add_fields r fs)) (done ++ fs).
Proof.
  induction fs as [|f fs IH]; intros r done HI; cbn [add_fields].
  - cbn. now rewrite app_nil_r.
  - pose proof (add_field_inv r done f HI) as HI1. destruct (add_field r f) as [r1 e1]. cbn [fst] in HI1.
    specialize (IH _ _ HI1). destruct (add_fields r1 fs) as [r2 e2]. cbn [fst] in *. now rewrite <- app_assoc in IH.
Qed.

Lemma add_fields_chain fs : forall r r', locked r = false -> Forall (fun g => 0 < size g) (fields r) ->
  Forall (fun g => 0 < size g) fs -> chain (fields r) -> n_used r <= n_bits r -> add_fields r fs = (r', []) ->
  chain (fields r') /\ n_used r' <= n_bits r'.
Proof.
  induction fs as [|f fs IH]; intros r r' HL HP HF HC HU HA; cbn [add_fields] in HA.
  - injection HA as <-. auto.
  - destruct (add_field r f) as [r1 e1] eqn:E1. destruct (add_fields r1 fs) as [r2 e2] eqn:E2.
    injection HA as <- HE. apply app_eq_nil in HE. destruct HE as [-> ->]. inversion HF; subst.
    destruct (add_field_chain r f r1) as (H3 & H4 & H5 & H6 & H7); auto. apply (IH r1 r2); auto.
Qed.

(** ** composition *)
Lemma slice_ones v f : slice v f = Z.land (Z.shiftr v (lsb f)) (Z.ones (size f)).
Proof. reflexivity. Qed.

Lemma slice_bit v f i : 0 <= lsb f -> 0 <= i < size f -> Z.testbit (slice v f) i = Z.testbit v (i + lsb f).
Proof. intros H1 H2. rewrite slice_ones, Z.land_spec, ones_bit, andb_true_r by auto. now apply Z.shiftr_spec. Qed.

Lemma slice_fits v f : 0 <= size f -> fits_in (size f) (slice v f).
Proof. intros H. rewrite slice_ones. now apply fits_land_mask. Qed.

Lemma compose_acc g fs : forall acc i, 0 <= i ->
  Z.testbit (fold_left (fun acc f => Z.lor acc (Z.shiftl (g f) (lsb f))) fs acc) i =
  Z.testbit acc i || existsb (fun f => Z.testbit (g f) (i - lsb f)) fs.
Proof.
  induction fs as [|f fs IH]; intros acc i Hi; cbn [fold_left existsb].
  - now rewrite orb_false_r.
  - rewrite IH by auto. rewrite Z.lor_spec. rewrite Z.shiftl_spec by auto. now rewrite orb_assoc.
Qed.

Lemma compose_nonneg g fs : forall acc, 0 <= acc -> (forall f, In f fs -> 0 <= g f) ->
  0 <= fold_left (fun acc f => Z.lor acc (Z.shiftl (g f) (lsb f))) fs acc.
Proof.
  induction fs as [|f fs IH]; intros acc Ha Hg; cbn [fold_left]; auto. apply IH.
  - apply Z.lor_nonneg. split; auto. apply Z.shiftl_nonneg. apply Hg. now left.
  - intros x Hx. apply Hg. now right.
Qed.

Lemma pairs_in {A} (R : A -> A -> Prop) (l : list A) x y : ForallOrdPairs R l -> In x l -> In y l ->
  x = y \/ R x y \/ R y x.
Proof. intros H Hx Hy. destruct (ForallOrdPairs_In H x y Hx Hy); intuition. Qed.

Lemma compose_ok g fs : pairwise_disjoint fs ->
  Forall (fun f => 0 < size f /\ 0 <= lsb f /\ fits_in (size f) (g f)) fs ->
  composed_of (compose g fs) g fs.
Proof.
  intros HD HF. rewrite Forall_forall in HF. unfold compose, composed_of. split; [|split].
  - apply compose_nonneg; [lia|]. intros f Hf. destruct (HF f Hf) as (_ & _ & H). apply H.
  - intros f i Hf Hc. destruct (HF f Hf) as (Hs & Hl & _). rewrite compose_acc by (unfold covers in Hc; lia).
    rewrite Z.bits_0. cbn [orb]. apply eq_true_iff_eq. rewrite existsb_exists. split.
    + intros (h & Hh & HB). destruct (HF h Hh) as (Hs' & Hl' & Hfit).
      destruct (pairs_in _ _ f h HD Hf Hh) as [->|Hdis]; auto. exfalso.
      assert (covers h i).
      { unfold covers. apply fits_bits in Hfit; [|lia]. destruct Hfit as [_ Hfit].
        destruct (Z.lt_ge_cases (i - lsb h) 0); [now rewrite Z.testbit_neg_r in HB by auto|].
        destruct (Z.lt_ge_cases (i - lsb h) (size h)); [lia|]. rewrite Hfit in HB by auto. discriminate. }
      destruct Hdis as [Hdis|Hdis]; apply (Hdis i); auto.
    + intros HB. exists f. auto.
  - intros i Hi Hn. rewrite compose_acc by auto. rewrite Z.bits_0. cbn [orb].
    apply not_true_iff_false. intros HE. apply existsb_exists in HE. destruct HE as (h & Hh & HB).
    destruct (HF h Hh) as (Hs' & Hl' & Hfit). apply (Hn h Hh). unfold covers.
    apply fits_bits in Hfit; [|lia]. destruct Hfit as [_ Hfit].
    destruct (Z.lt_ge_cases (i - lsb h) 0); [now rewrite Z.testbit_neg_r in HB by auto|].
    destruct (Z.lt_ge_cases (i - lsb h) (size h)); [lia|]. rewrite Hfit in HB by auto. discriminate.
Qed.

Lemma set_value_RW f v : access f = RW -> fits_in (size f) v -> 0 < size f -> set_value f v = v.
Proof.
  intros HA HF Hs. unfold set_value. rewrite mask_ones, set_clip, HA by auto. apply land_mask_id; auto. lia.
Qed.

(** ** register prediction *)
Lemma be_all n : 0 <= n -> Z.land 1 (Z.shiftr (-1) n) =? 0 = false.
Proof.
  intros H. replace (Z.shiftr (-1) n) with (-1); [reflexivity|].
  apply Z.bits_inj'. intros i Hi. rewrite Z.shiftr_spec, !Z.bits_m1 by lia. reflexivity.
Qed.

(** With all byte enables, each field is predicted with its slice. *)
Lemma predict_fields_all b v k p m : forall fs ok, Forall (fun f => 0 <= lsb f) fs ->
  exists fs' ok', predict_fields b fs v k p m (-1) ok = (fs', POk ok') /\
    Forall2 (fun f f' => exists o o', do_predict b f (slice v f) k p m (-1) o = Some (f', o')) fs fs'.
Proof.
  induction fs as [|f fs IH]; intros ok HF; cbn [predict_fields].
  - eexists _, _. split; auto.
  - inversion HF; subst.
    assert (HD : exists f' o', do_predict b f (slice v f) k p m (Z.shiftr (-1) (Z.quot (lsb f) 8)) ok = Some (f', o')
       /\ do_predict b f (slice v f) k p m (-1) ok = Some (f', o')).
    { unfold do_predict. rewrite be_all by (apply Z.quot_pos; lia). change (Z.land 1 (-1) =? 0) with false.
      cbn [negb]. destruct k; [| |destruct p; [destruct (is_in _ _); [|destruct (is_in _ _); [|destruct (is_in _ _)]]|]]; eauto. }
    destruct HD as (f' & o' & E1 & E2). rewrite E1. destruct (IH o') as (fs' & ok' & E3 & HF2); auto.
    rewrite E3. exists (f' :: fs'), ok'. split; auto. constructor; eauto.
Qed.

(** What one field becomes. *)
Definition wrote (v : Z) (m : via) (f f' : field) : Prop :=
  size f' = size f /\ lsb f' = lsb f /\ access f' = access f /\ volatile f' = volatile f /\ resets f' = resets f /\
  written f' = true /\ desired f' = mirrored f' /\
  has_bits (size f) (mirrored f') (fun i => write_bit (write_effect (get_access f m)) (written f)
     (Z.testbit (mirrored f) i) (Z.testbit v (i + lsb f))).

Lemma has_bits_ext n v b b' : has_bits n v b -> (forall i, 0 <= i < n -> b i = b' i) -> has_bits n v b'.
Proof. intros [H1 H2] H. split; auto. intros i Hi. rewrite H2 by auto. auto. Qed.

Lemma field_wrote b f v m o f' o' : FInv f -> 0 <= lsb f ->
  do_predict b f (slice v f) PWrite FrontOrPredict m (-1) o = Some (f', o') -> wrote v m f f'.
Proof.
  intros HI Hl H. assert (HS := do_predict_size _ _ _ _ _ _ _ _ _ _ H).
  destruct HS as (S1 & S2 & S3 & S4 & S5). unfold do_predict in H. change (Z.land 1 (-1) =? 0) with false in H.
  cbn iota in H. injection H as <- <-. unfold wrote. repeat split; auto; cbn -[Z.land];
  (eapply has_bits_ext; [exact (write_prediction f (slice v f) m HI)|]; intros i Hi; cbn; now rewrite slice_bit).
Qed.

Lemma reg_wrote r v m : Forall (fun f => FInv f /\ 0 <= lsb f) (fields r) ->
  exists r' ok, reg_predict r v PWrite FrontOrPredict m (-1) = (r', POk ok) /\
    Forall2 (wrote v m) (fields r) (fields r').
Proof.
  intros HF. unfold reg_predict. rewrite andb_false_r.
  destruct (predict_fields_all (busy r) v PWrite FrontOrPredict m (fields r) true) as (fs' & ok' & E & H2).
  { eapply Forall_impl; [|exact HF]. cbn. tauto. }
  rewrite E. eexists _, ok'. split; [reflexivity|]. cbn.
  clear E. induction H2 as [|f f' fs fs' (o & o' & HD) H2 IH]; constructor.
  - inversion HF as [|? ? [HI Hl] HF']; subst. eapply field_wrote; eauto.
  - apply IH. now inversion HF.
Qed.

Definition readback (v : Z) (m : via) (f f' : field) : Prop :=
  size f' = size f /\ lsb f' = lsb f /\ access f' = access f /\ written f' = written f /\
  has_bits (size f) (mirrored f') (fun i => read_bit (read_effect (get_access f m))
     (Z.testbit (mirrored f) i) (Z.testbit v (i + lsb f))).

Lemma reg_readback r v m : Forall (fun f => FInv f /\ 0 <= lsb f) (fields r) ->
  exists r' ok, reg_predict r v PRead FrontOrPredict m (-1) = (r', POk ok) /\
    Forall2 (readback v m) (fields r) (fields r').
Proof.
  intros HF. unfold reg_predict. rewrite andb_false_r.
  destruct (predict_fields_all (busy r) v PRead FrontOrPredict m (fields r) true) as (fs' & ok' & E & H2).
  { eapply Forall_impl; [|exact HF]. cbn. tauto. }
  rewrite E. eexists _, ok'. split; [reflexivity|]. cbn.
  clear E. induction H2 as [|f f' fs fs' (o & o' & HD) H2 IH]; constructor.
  - inversion HF as [|? ? [HI Hl] HF']; subst. assert (HS := do_predict_size _ _ _ _ _ _ _ _ _ _ HD).
    pose proof (finv_predict _ _ _ _ _ _ _ _ _ _ HI HD) as HI'.
    destruct HS as (S1 & S2 & S3 & S4 & S5). destruct (read_prediction _ _ _ _ _ _ _ _ HI HD) as (R1 & R2 & R3 & R4).
    unfold readback. do 4 (split; auto). split; [rewrite <- S1; apply HI'|].
    intros i Hi. rewrite R1 by auto. now rewrite slice_bit.
  - apply IH. now inversion HF.
Qed.

(** ** write and update *)
Lemma pre_write_id fs : forall v, Forall (fun f => 0 <= lsb f) fs ->
  fold_left (fun value f =>
      let msk := Z.shiftl (Z.shiftl 1 (size f) - 1) (lsb f) in
      Z.lor (Z.land value (Z.lnot msk)) (Z.shiftl (Z.shiftr (Z.land value msk) (lsb f)) (lsb f))) fs v = v.
Proof.
  induction fs as [|f fs IH]; intros v HF; cbn [fold_left]; auto. inversion HF; subst.
  cbv zeta. replace (Z.lor _ _) with v; [now apply IH|].
  set (msk := Z.shiftl (Z.shiftl 1 (size f) - 1) (lsb f)). apply Z.bits_inj'. intros i Hi.
  rewrite Z.lor_spec, Z.land_spec, Z.lnot_spec by auto. rewrite Z.shiftl_spec by auto.
  destruct (Z.lt_ge_cases i (lsb f)).
  - rewrite (Z.testbit_neg_r _ (i - lsb f)) by lia. unfold msk. rewrite Z.shiftl_spec_low by auto.
    cbn. now rewrite andb_true_r, orb_false_r.
  - rewrite Z.shiftr_spec by lia. replace (i - lsb f + lsb f) with i by lia. rewrite Z.land_spec.
    destruct (Z.testbit v i), (Z.testbit msk i); reflexivity.
Qed.

Lemma finv_set f v : FInv f -> FInv (f_set f v).
Proof. intros H. exact (finv_step f (FSet v) H I). Qed.

(** Register write: the bus sees the value, and every field takes the effect of
    its policy on its mirrored value. *)
Lemma reg_write_ok r v m : 0 <= n_bits r -> Forall (fun f => FInv f /\ 0 <= lsb f) (fields r) ->
  exists r', reg_write r v m = (Z.land v (Z.ones (n_bits r)), r') /\
    Forall2 (wrote (Z.land v (Z.ones (n_bits r))) m) (fields (reg_set r v)) (fields r').
Proof.
  intros Hn HF. unfold reg_write.
  assert (HF' : Forall (fun f => FInv f /\ 0 <= lsb f) (fields (reg_set r v))).
  { cbn. apply Forall_map. eapply Forall_impl; [|exact HF]. cbn. intros f [H1 H2]. split; auto. now apply finv_set. }
  unfold pre_write_value. rewrite pre_write_id by (eapply Forall_impl; [|exact HF']; cbn; tauto).
  replace (Z.shiftl 1 (n_bits (reg_set r v)) - 1) with (Z.ones (n_bits r)) by (unfold Z.ones; cbn; lia).
  destruct (reg_wrote (reg_set r v) (Z.land v (Z.ones (n_bits r))) m HF') as (r' & ok & E & H2).
  rewrite E. cbn [fst]. eauto.
Qed.

Lemma has_bits_unique n a c b : has_bits n a b -> has_bits n c b -> 0 <= n -> a = c.
Proof.
  intros [H1 H2] [H3 H4] Hn. apply fits_bits in H1; auto. apply fits_bits in H3; auto.
  apply Z.bits_inj'. intros i Hi. destruct (Z.lt_ge_cases i n).
  - now rewrite H2, H4.
  - destruct H1 as [_ ->]; auto. destruct H3 as [_ ->]; auto.
Qed.

Lemma xupdate_fits f : 0 < size f -> fits_in (size f) (XupdateX f).
Proof. intros H. unfold XupdateX. rewrite mask_ones. apply fits_land_mask. lia. Qed.

Lemma update_ok r : 0 <= n_bits r -> layout (n_bits r) (fields r) ->
  Forall (fun f => FInv f /\ reach f /\ access f <> NOACCESS) (fields r) -> reg_needs_update r = true ->
  exists bv r', reg_update r (Map RtRW) = (Some bv, r') /\
    Forall2 (fun f f' => desired f' = mirrored f' /\
      (data_dependent (access f) \/ desired f <> mirrored f -> mirrored f' = desired f) /\
      (~ data_dependent (access f) -> mirrored f' = if (match write_effect (access f) with ClearAll => true | _ => false end)
        then 0 else Z.ones (size f))) (fields r) (fields r').
Proof.
  intros Hn [HL HD] HF HU. unfold reg_update. rewrite HU.
  set (upd := compose XupdateX (fields r)).
  assert (HC : composed_of upd XupdateX (fields r)).
  { apply compose_ok; auto. eapply Forall_impl; [|exact HL]. cbn. intros f (H1 & H2 & H3). repeat split; auto; now apply xupdate_fits. }
  destruct (reg_write_ok r upd (Map RtRW) Hn) as (r' & E & H2).
  { rewrite Forall_forall in *. intros f Hf. split; [now apply HF|]. destruct (HL f Hf); tauto. }
  rewrite E. eexists _, r'. split; [reflexivity|].
  set (bv := Z.land upd (Z.ones (n_bits r))) in *.
  destruct HC as (HC0 & HC1 & HC2).
  assert (HB : forall f i, In f (fields r) -> 0 <= i < size f -> Z.testbit bv (i + lsb f) = Z.testbit (XupdateX f) i).
  { intros f i Hf Hi. rewrite Forall_forall in HL. destruct (HL f Hf) as (Hs & Hl & Hb).
    unfold bv. rewrite Z.land_spec, ones_bit, andb_true_r by lia. rewrite (HC1 f) by (auto; unfold covers; lia).
    f_equal. lia. }
  clear HC0 HC1 HC2 E HU. clearbody bv upd. cbn [fields reg_set with_fields] in H2.
  assert (HFL : Forall (fun f => FInv f /\ reach f /\ access f <> NOACCESS /\ 0 < size f) (fields r)).
  { rewrite Forall_forall in *. intros f Hf. destruct (HF f Hf) as (? & ? & ?). destruct (HL f Hf). tauto. }
  clear HF HL HD. revert H2 HB HFL. generalize (fields r') as fs'. generalize (fields r) as fs.
  induction fs as [|f fs IH]; intros fs' H2 HB HF; inversion H2 as [|? f' ? fs2 HW H2']; subst; constructor.
  - inversion HF as [|? ? (HI & HR & HN & Hs) HF']; subst.
    unfold wrote in HW. destruct HW as (W1 & W2 & W3 & W4 & W4' & W5 & W6 & W7). cbn in W7.
    split; auto. split.
    + intros Hdd. rewrite <- (update_predicts f) by auto.
      eapply has_bits_unique; [exact W7| |lia].
      eapply has_bits_ext; [pose proof (write_prediction f (XupdateX f) (Map RtRW) HI) as HP|].
      * rewrite mask_ones in *. rewrite (land_mask_id _ (XupdateX f)) in HP; [exact HP|lia|now apply xupdate_fits].
      * intros i Hi. cbn. rewrite HB; auto. now left.
    + intros Hdd. eapply has_bits_unique; [exact W7| |lia].
      unfold data_dependent in Hdd.
      destruct (write_effect (access f)) eqn:EW; try (exfalso; apply Hdd; split; congruence);
        cbn in EW; (split; [apply fits_0 || apply fits_mask; lia|]); intros i Hi; cbn;
        [apply Z.bits_0|now apply ones_bit].
  - apply IH; auto.
    + intros g i Hg. apply HB. now right.
    + now inversion HF.
Qed.

(** ** do_check *)
Lemma check_dc fs : forall dc i, 0 <= i -> Forall (fun x : field * bool => 0 < size (fst x) /\ 0 <= lsb (fst x)) fs ->
  Z.testbit (fold_left (fun dc (x : field * bool) =>
      let (f, nocheck) := x in
      if nocheck || false then Z.lor dc (Z.shiftl (Z.shiftl 1 (size f) - 1) (lsb f)) else dc) fs dc) i
  = Z.testbit dc i || existsb (fun x : field * bool => snd x && (lsb (fst x) <=? i) && (i <? lsb (fst x) + size (fst x))) fs.
Proof.
  induction fs as [|[f nc] fs IH]; intros dc i Hi HF; cbn [fold_left existsb]; [now rewrite orb_false_r|].
  inversion HF as [|? ? [Hs Hl] HF']; subst. cbn [fst snd] in *. rewrite IH by auto. destruct nc; cbn [orb andb]; auto.
  rewrite Z.lor_spec, Z.shiftl_spec by auto.
  replace (Z.shiftl 1 (size f) - 1) with (Z.ones (size f)) by (unfold Z.ones; lia).
  rewrite Z.testbit_ones by lia. rewrite <- orb_assoc. f_equal. f_equal. lia.
Qed.

Lemma do_check_ok fs expected actual m : Forall (fun x : field * bool => 0 < size (fst x) /\ 0 <= lsb (fst x)) fs ->
  do_check fs expected actual m = true <->
  forall i, 0 <= i -> (forall f, In (f, true) fs -> ~ covers f i) -> Z.testbit actual i = Z.testbit expected i.
Proof.
  intros HF. unfold do_check, first_char_is_WO. rewrite Z.eqb_eq. split.
  - intros H i Hi Hn. apply (f_equal (fun x => Z.testbit x i)) in H. rewrite !Z.lor_spec in H.
    rewrite check_dc in H by auto. rewrite Z.bits_0 in H. cbn [orb] in H.
    assert (HE : existsb (fun x : field * bool => snd x && (lsb (fst x) <=? i) && (i <? lsb (fst x) + size (fst x))) fs = false).
    { apply not_true_iff_false. intros HE. apply existsb_exists in HE. destruct HE as ([f nc] & Hf & HE).
      cbn in HE. destruct nc; [|discriminate]. apply (Hn f Hf). unfold covers. lia. }
    rewrite HE in H. now rewrite !orb_false_r in H.
  - intros H. apply Z.bits_inj'. intros i Hi. rewrite !Z.lor_spec, check_dc by auto. rewrite Z.bits_0. cbn [orb].
    destruct (existsb _ fs) eqn:HE; [now rewrite !orb_true_r|]. rewrite !orb_false_r. apply H; auto.
    intros f Hf Hc. apply not_true_iff_false in HE. apply HE. apply existsb_exists. exists (f, true).
    split; auto. cbn. unfold covers in Hc. lia.
Qed.

(** ** Xget_fields_accessX *)
Lemma fields_access_ro m fs : forall w, fields_access fs m true w =
  if negb w && forallb (fun f => is_in (get_access f m) [RO; RC; RS]) fs then ARO else ARW.
Proof.
  induction fs as [|f fs IH]; intros w; cbn [fields_access forallb].
  - now destruct w.
  - destruct (is_in (get_access f m) [RO; RC; RS]) eqn:E.
    + destruct w; cbn; auto. now rewrite IH.
    + rewrite andb_false_r. destruct (is_in _ [WO; WOC; WOS; WO1]); reflexivity.
Qed.
Lemma fields_access_wo m fs : fields_access fs m false true =
  if forallb (fun f => is_in (get_access f m) [WO; WOC; WOS; WO1]) fs then AWO else ARW.
Proof.
  induction fs as [|f fs IH]; cbn [fields_access forallb]; auto.
  destruct (get_access f m); cbn -[is_in] in *; auto; cbn; auto.
Qed.
