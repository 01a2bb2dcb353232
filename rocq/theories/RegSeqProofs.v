From Coq Require Import ZArith List Bool Arith Lia ZifyBool ZifyNat Sorted.
From Verif Require Import RegFieldModel RegFieldSpec RegFieldProofs RegModel RegSpec RegProofs RegSeqModel RegSeqSpec.
Import ListNotations.
Open Scope Z_scope.

Definition shape (f : field) := (size f, lsb f, access f).
Lemma shape_eq f g : shape f = shape g -> size f = size g /\ lsb f = lsb g /\ access f = access g.
Proof. unfold shape. intros H. injection H as -> -> ->. auto. Qed.
Lemma shape_covers f g i : shape f = shape g -> covers f i -> covers g i.
Proof. intros H. apply shape_eq in H. destruct H as (H1 & H2 & _). unfold covers. now rewrite H1, H2. Qed.
Lemma shape_access f g m : shape f = shape g -> get_access f m = get_access g m.
Proof. intros H. apply shape_eq in H. destruct H as (_ & _ & H). unfold get_access. now rewrite H. Qed.
Lemma shapes_in fs fs' f : map shape fs = map shape fs' -> In f fs -> exists g, In g fs' /\ shape g = shape f.
Proof.
  intros H Hf. apply (in_map shape) in Hf. rewrite H in Hf. apply in_map_iff in Hf.
  destruct Hf as (g & E & Hg). eauto.
Qed.

Lemma implements_shape {D} fs fs' (wr : D -> via -> Z -> D * bool) rd bits done :
  map shape fs = map shape fs' -> implements fs wr rd bits done -> implements fs' wr rd bits done.
Proof.
  intros HS [H1 H2 H3 H4 H5 H6 H7 H8]. constructor; auto.
  - intros d m v f i Hf Hc. destruct (shapes_in fs' fs f) as (g & Hg & E); auto.
    rewrite (H3 d m v g i) by (auto; exact (shape_covers f g i (eq_sym E) Hc)). now rewrite (shape_access g f).
  - intros d m f i Hf Hc Hr. destruct (shapes_in fs' fs f) as (g & Hg & E); auto.
    apply (H5 d m g i); auto; [exact (shape_covers f g i (eq_sym E) Hc)|]. now rewrite (shape_access g f).
  - intros d m i Hi Hn. apply H6; auto. intros f Hf Hc. destruct (shapes_in fs fs' f) as (g & Hg & E); auto.
    apply (Hn g Hg). exact (shape_covers f g i (eq_sym E) Hc).
  - intros d m f i Hf Hc. destruct (shapes_in fs' fs f) as (g & Hg & E); auto.
    rewrite (H7 d m g i) by (auto; exact (shape_covers f g i (eq_sym E) Hc)). now rewrite (shape_access g f).
Qed.

(** ** The bits that are not tested *)
Definition ready (fs : list field) : Prop := chain fs /\ Forall (fun f => FInv f /\ 0 <= lsb f) fs.

Lemma chain_shape fs : forall fs', map shape fs = map shape fs' -> chain fs -> chain fs'.
Proof.
  unfold chain. induction fs as [|f fs IH]; intros [|g fs'] H HC; try discriminate; [constructor|].
  cbn in H. assert (H1 : shape f = shape g) by congruence. assert (H2 : map shape fs = map shape fs') by congruence.
  inversion HC as [|? ? HC1 HC2]; subst. constructor; [now apply IH|]. rewrite Forall_forall in *. intros x Hx.
  destruct (shapes_in fs' fs x) as (y & Hy & E); auto. specialize (HC2 y Hy).
  apply shape_eq in E, H1. lia.
Qed.

Section Scan.
Context (W : Z).
Lemma scan_spec m : forall fs next dc dc', chain (map fst fs) -> Forall (fun x => next <= lsb (fst x)) fs ->
  Forall (fun x => 0 < size (fst x)) fs -> scan W fs m next dc = Some dc' ->
  (forall f nc i, In (f, nc) fs -> covers f i -> dc' i = dont_care nc f m /\ i < W) /\
  (forall i, (forall x, In x fs -> ~ covers (fst x) i) -> dc' i = dc i).
Proof.
  induction fs as [|[f nc] fs IH]; intros next dc dc' HC HN HP HS; cbn [scan] in HS.
  - injection HS as <-. split; [intros ? ? ? []|auto].
  - cbn [map fst] in HC. inversion HC as [|? ? HC1 HC2]; subst. inversion HN as [|? ? N1 N2]; subst.
    inversion HP as [|? ? P1 P2]; subst. cbn [fst] in *. replace (Z.max next (lsb f)) with (lsb f) in HS by lia.
    destruct (W <? lsb f + size f) eqn:EW; [discriminate|].
    apply IH in HS; auto.
    2: { apply Forall_forall. intros x Hx. rewrite Forall_forall in HC2. apply HC2. now apply in_map. }
    destruct HS as [S1 S2]. split.
    + intros g nc' i [E|Hg] Hc.
      * injection E as <- <-. unfold covers in Hc. split; [|lia]. rewrite S2.
        -- replace ((lsb f <=? i) && (i <? lsb f + size f)) with true by lia. reflexivity.
        -- intros x Hx Hc'. rewrite Forall_forall in HC2. specialize (HC2 (fst x) (in_map _ _ _ Hx)).
           unfold covers in Hc'. cbn in HC2. lia.
      * now apply S1.
    + intros i Hn. rewrite S2 by (intros x Hx; apply Hn; now right).
      assert (Hf := Hn (f, nc) (or_introl eq_refl)). unfold covers in Hf. cbn in Hf.
      replace ((lsb f <=? i) && (i <? lsb f + size f)) with false by lia. reflexivity.
Qed.
Lemma scan_some m : forall fs next dc, chain (map fst fs) -> Forall (fun x => next <= lsb (fst x)) fs ->
  Forall (fun x => 0 < size (fst x)) fs -> Forall (fun x => lsb (fst x) + size (fst x) <= W) fs ->
  exists dc', scan W fs m next dc = Some dc'.
Proof.
  induction fs as [|[f nc] fs IH]; intros next dc HC HN HP HW; cbn [scan]; [eauto|].
  cbn [map fst] in HC. inversion HC as [|? ? HC1 HC2]; subst. inversion HN as [|? ? N1 N2]; subst.
  inversion HP as [|? ? P1 P2]; subst. inversion HW as [|? ? W1' W2']; subst. cbn [fst] in *.
  replace (Z.max next (lsb f)) with (lsb f) by lia. replace (W <? lsb f + size f) with false by lia.
  apply IH; auto. apply Forall_forall. intros x Hx. rewrite Forall_forall in HC2. apply HC2. now apply in_map.
Qed.
Lemma scan_none m : forall fs next dc x, In x fs -> W < lsb (fst x) + size (fst x) ->
  scan W fs m next dc = None.
Proof.
  induction fs as [|[f nc] fs IH]; intros next dc x [] HW; cbn [scan].
  - subst x. cbn in HW. replace (W <? _) with true by lia. reflexivity.
  - destruct (W <? _); auto. eapply IH; eauto.
Qed.

Lemma mask_of_bit dc i : 0 <= i -> Z.testbit (mask_of W dc) i = (i <? W) && dc i.
Proof.
  intros Hi. unfold mask_of.
  enough (H : forall n acc, Z.testbit (fold_left (fun acc i => Z.lor acc (Z.shiftl (Z.b2z (dc (Z.of_nat i))) (Z.of_nat i)))
     (seq 0 n) acc) i = Z.testbit acc i || ((i <? Z.of_nat n) && dc i)).
  { rewrite H, Z.bits_0. cbn [orb]. f_equal. lia. }
  induction n as [|n IH]; intros acc.
  - cbn. replace (i <? 0) with false by lia. now rewrite orb_false_r.
  - rewrite seq_S, fold_left_app. cbn [fold_left Nat.add]. rewrite Z.lor_spec, IH, Z.shiftl_spec by lia.
    destruct (Z.eq_dec i (Z.of_nat n)) as [->|Hne].
    + replace (Z.of_nat n - Z.of_nat n) with 0 by lia. rewrite Z.b2z_bit0.
      replace (Z.of_nat n <? Z.of_nat n) with false by lia. replace (Z.of_nat n <? Z.of_nat (S n)) with true by lia.
      cbn. now rewrite orb_false_r.
    + replace (Z.testbit (Z.b2z (dc (Z.of_nat n))) (i - Z.of_nat n)) with false.
      * rewrite orb_false_r. f_equal. f_equal. lia.
      * destruct (Z.lt_ge_cases (i - Z.of_nat n) 0); [now rewrite Z.testbit_neg_r|].
        symmetry. destruct (dc (Z.of_nat n)); cbn [Z.b2z]; [|apply Z.bits_0].
        apply Z.bits_above_log2; cbn; lia.
Qed.
End Scan.

(** ** What a write and a read do to the register model *)
Lemma predict_n_bits r v k p m be : n_bits (fst (reg_predict r v k p m be)) = n_bits r.
Proof. unfold reg_predict. destruct (_ && _); auto. now destruct (predict_fields _ _ _ _ _ _ _ _). Qed.

Lemma wrote_shape v m f f' : wrote v m f f' -> shape f' = shape f.
Proof. intros (H1 & H2 & H3 & _). unfold shape. congruence. Qed.

Lemma write_full r v m : 0 <= n_bits r -> ready (fields r) ->
  exists r', reg_write r v m = (Z.land v (Z.ones (n_bits r)), r') /\ n_bits r' = n_bits r /\
    Forall2 (fun f f' => wrote (Z.land v (Z.ones (n_bits r))) m f f' /\ FInv f' /\ shape f' = shape f) (fields r) (fields r').
Proof.
  intros Hn [HC HF]. destruct (reg_write_ok r v m Hn HF) as (r' & E & H2). exists r'. split; auto. split.
  - replace r' with (snd (reg_write r v m)) by now rewrite E. unfold reg_write. cbn [snd].
    rewrite predict_n_bits. reflexivity.
  - clear E. cbn [reg_set fields with_fields] in H2. remember (Z.land v (Z.ones (n_bits r))) as bv. clear Heqbv HC Hn.
    revert H2. generalize (fields r'). induction (fields r) as [|f fs IH]; intros fs' H2; inversion H2 as [|? f' ? l HW H3]; subst; constructor.
    + inversion HF as [|? ? [HI Hl] _]; subst. unfold wrote in *. cbn in HW. change (get_access (f_set f _) m) with (get_access f m) in HW.
      destruct HW as (w1 & w2 & w3 & w4 & w5 & w6 & w7 & w8). destruct HI as (I1 & I2 & I3 & I4).
      split; [repeat (split; auto); apply w8|]. split; [|unfold shape; congruence].
      unfold FInv. rewrite w1, w5, w7. repeat (split; auto); apply w8.
    + apply IH; auto. now inversion HF.
Qed.

Lemma read_full r v m : ready (fields r) ->
  exists r', reg_read r v m = r' /\ n_bits r' = n_bits r /\
    Forall2 (fun f f' => (forall i, 0 <= i < size f -> Z.testbit (mirrored f') i =
       read_bit (read_effect (get_access f m)) (Z.testbit (mirrored f) i) (Z.testbit v (i + lsb f))) /\
       (desired f = mirrored f -> desired f' = mirrored f') /\ written f' = written f /\ FInv f' /\ shape f' = shape f)
     (fields r) (fields r').
Proof.
  intros [HC HF]. unfold reg_read. eexists. split; [reflexivity|]. split; [apply predict_n_bits|].
  unfold reg_predict. rewrite andb_false_r.
  destruct (predict_fields_all (busy r) v PRead FrontOrPredict m (fields r) true) as (fs' & ok' & E & H2).
  { eapply Forall_impl; [|exact HF]. cbn. tauto. }
  rewrite E. cbn. clear E HC. induction H2 as [|f f' fs fs' (o & o' & HD) H2 IH]; constructor.
  - inversion HF as [|? ? [HI Hl] HF']; subst. assert (HS := do_predict_size _ _ _ _ _ _ _ _ _ _ HD).
    pose proof (finv_predict _ _ _ _ _ _ _ _ _ _ HI HD) as HI'.
    destruct HS as (S1 & S2 & S3 & S4 & S5). destruct (read_prediction _ _ _ _ _ _ _ _ HI HD) as (R1 & R2 & R3 & R4).
    split; [|split; [|split; [auto|split; [auto|unfold shape; congruence]]]].
    + intros i Hi. rewrite R1 by auto. now rewrite slice_bit.
    + intros E. destruct (read_effect (get_access f m)) eqn:ER; try (apply R2; discriminate). now rewrite (R3 eq_refl).
  - apply IH. now inversion HF.
Qed.

Lemma F2_shape (P : field -> field -> Prop) fs fs' : Forall2 (fun f f' => P f f' /\ shape f' = shape f) fs fs' ->
  map shape fs' = map shape fs.
Proof. induction 1 as [|? ? ? ? [_ H]]; cbn; congruence. Qed.
Lemma F2_in_r {A} (P : A -> A -> Prop) l l' y : Forall2 P l l' -> In y l' -> exists x, In x l /\ P x y.
Proof. induction 1 as [|a b l l' H H2 IH]; intros Hy; [destruct Hy|]. destruct Hy as [<-|Hy]; [exists a; split; [now left|auto]|].
  destruct (IH Hy) as (x & ? & ?). exists x. split; [now right|auto]. Qed.
Lemma F2_impl {A} (P Q : A -> A -> Prop) l l' : (forall x y, P x y -> Q x y) -> Forall2 P l l' -> Forall2 Q l l'.
Proof. induction 2; constructor; auto. Qed.
Lemma ready_next fs fs' : ready fs -> map shape fs' = map shape fs -> Forall FInv fs' -> ready fs'.
Proof.
  intros [HC HF] HS HI. split; [apply (chain_shape fs); auto|]. rewrite Forall_forall in HF, HI. apply Forall_forall. intros f Hf. split; auto.
  destruct (shapes_in fs' fs f) as (g & Hg & E); auto. apply shape_eq in E. destruct (HF g Hg). lia.
Qed.
Lemma ready_compose g fs : ready fs -> (forall f, In f fs -> fits_in (size f) (g f)) -> composed_of (compose g fs) g fs.
Proof.
  intros [HC HF] Hg. apply compose_ok; [now apply chain_disjoint|]. rewrite Forall_forall in *.
  intros f Hf. destruct (HF f Hf) as [[H1 _] H2]. auto.
Qed.
Lemma ready_get r : ready (fields r) -> composed_of (reg_get r) desired (fields r).
Proof.
  intros H. apply ready_compose; auto. intros f Hf. destruct H as [_ HF]. rewrite Forall_forall in HF. apply HF; auto.
Qed.
Lemma ready_mirrored r : ready (fields r) -> composed_of (reg_get_mirrored r) mirrored (fields r).
Proof.
  intros H. apply ready_compose; auto. intros f Hf. destruct H as [_ HF]. rewrite Forall_forall in HF. apply HF; auto.
Qed.

Definition coverb (fs : list field) (i : Z) : bool := existsb (fun f => (lsb f <=? i) && (i <? lsb f + size f)) fs.
Lemma coverb_true fs i : coverb fs i = true <-> exists f, In f fs /\ covers f i.
Proof.
  unfold coverb, covers. rewrite existsb_exists. split; intros (f & Hf & H); exists f; split; auto; lia.
Qed.
Lemma coverb_false fs i : coverb fs i = false <-> forall f, In f fs -> ~ covers f i.
Proof.
  rewrite <- not_true_iff_false, coverb_true. split; [intros H f Hf Hc; apply H; eauto|].
  intros H (f & Hf & Hc). exact (H f Hf Hc).
Qed.

(** ** No false alarms *)
Section Sound.
Context {D : Type} (wr : D -> via -> Z -> D * bool) (rd : D -> via -> D * Z * bool) (bits : D -> Z -> bool) (done : D -> bool).
Context (W : Z).

Definition via_ok (fs : list field) (m : via) : Prop := (forall f, In f fs -> ~ write_once (access f)) \/ m = Map RtRW.
Lemma via_ok_shape fs fs' m : map shape fs' = map shape fs -> via_ok fs m -> via_ok fs' m.
Proof.
  intros HS [H|H]; [left|now right]. intros f Hf. destruct (shapes_in fs' fs f) as (g & Hg & E); auto.
  apply shape_eq in E. destruct E as (_ & _ & <-). auto.
Qed.
Definition Good (r : reg) (d : D) : Prop := 0 <= n_bits r /\ ready (fields r) /\ in_sync bits done (fields r) d.

Lemma write_bit_done e a b o w : (e = FirstAsIs -> a = b) -> write_bit e a o w = write_bit e b o w.
Proof. intros H. destruct e; auto. now rewrite H. Qed.
Lemma first_write_once f m : write_effect (get_access f m) = FirstAsIs -> write_once (access f).
Proof.
  unfold write_once, get_access. destruct m as [|[]]; cbn; destruct (access f); cbn; intros H; try discriminate; auto.
Qed.

Lemma write_sync r d m v : implements (fields r) wr rd bits done -> via_ok (fields r) m -> Good r d ->
  exists r', reg_write r v m = (Z.land v (Z.ones (n_bits r)), r') /\ n_bits r' = n_bits r /\
    map shape (fields r') = map shape (fields r) /\ Good r' (fst (wr d m (Z.land v (Z.ones (n_bits r))))).
Proof.
  intros HI HV (Hn & HR & HS). destruct (write_full r v m Hn HR) as (r' & E & En & H2). exists r'. split; auto. split; auto.
  set (bv := Z.land v (Z.ones (n_bits r))) in *.
  assert (Hsh : map shape (fields r') = map shape (fields r)).
  { apply (F2_shape (fun _ _ => True)). eapply F2_impl; [|exact H2]. cbn. tauto. }
  split; auto. split; [now rewrite En|]. split.
  { eapply ready_next; eauto. apply Forall_forall. intros f' Hf'.
    destruct (F2_in_r _ _ _ _ H2 Hf') as (f & _ & _ & HH & _). auto. }
  intros f' Hf'. destruct (F2_in_r _ _ _ _ H2 Hf') as (f & Hf & (w1 & w2 & w3 & w4 & w5 & w6 & w7 & _ & w8) & HF' & Hshf).
  destruct (HS f Hf) as (s1 & s2 & s3). split; auto. split.
  - intros Hw. rewrite w6. destruct HV as [HV| ->]; [|symmetry; apply HI]. exfalso. rewrite w3 in Hw. exact (HV f Hf Hw).
  - intros i Hc. assert (Hc' : covers f i) by (eapply shape_covers; eauto).
    rewrite (i_write _ _ _ _ _ HI d m bv f i Hf Hc'). rewrite w2. rewrite w8 by (unfold covers in Hc'; lia).
    replace (i - lsb f + lsb f) with i by lia. rewrite (s3 i Hc'). apply write_bit_done.
    intros He. apply s2. eapply first_write_once; eauto.
Qed.

Lemma read_sync r d m : implements (fields r) wr rd bits done -> Good r d ->
  let r' := reg_read r (snd (fst (rd d m))) m in
  n_bits r' = n_bits r /\ map shape (fields r') = map shape (fields r) /\ Good r' (fst (fst (rd d m))).
Proof.
  intros HI (Hn & HR & HS) r'. destruct (read_full r (snd (fst (rd d m))) m HR) as (r2 & E & En & H2).
  fold r' in E. subst r2. split; auto.
  assert (Hsh : map shape (fields r') = map shape (fields r)).
  { apply (F2_shape (fun _ _ => True)). eapply F2_impl; [|exact H2]. cbn. tauto. }
  split; auto. split; [now rewrite En|]. split.
  { eapply ready_next; eauto. apply Forall_forall. intros f' Hf'.
    destruct (F2_in_r _ _ _ _ H2 Hf') as (f & _ & _ & _ & _ & HH & _). auto. }
  intros f' Hf'. destruct (F2_in_r _ _ _ _ H2 Hf') as (f & Hf & w1 & w2 & w3 & w4 & w5).
  destruct (HS f Hf) as (s1 & s2 & s3). split; auto. split.
  - intros Hw. apply shape_eq in w5. destruct w5 as (_ & _ & w5). rewrite w5 in Hw. rewrite w3, s2 by auto.
    symmetry. apply HI.
  - intros i Hc. assert (Hc' : covers f i) by (eapply shape_covers; eauto). apply shape_eq in w5. destruct w5 as (e1 & e2 & e3).
    rewrite (i_after _ _ _ _ _ HI d m f i Hf Hc'). rewrite e2. rewrite w1 by (unfold covers in Hc'; lia).
    replace (i - lsb f + lsb f) with i by lia. rewrite (s3 i Hc').
    destruct (read_effect (get_access f m)) eqn:ER; auto. cbn. apply (i_seen _ _ _ _ _ HI d m f i Hf Hc'). congruence.
Qed.

Lemma dont_care_unread nc f m : dont_care nc f m = false -> read_effect (get_access f m) <> RUnreadable.
Proof.
  unfold dont_care. intros H. apply orb_false_iff in H. destruct H as [_ H]. intros E.
  destruct (get_access f m); try discriminate E; discriminate H.
Qed.

(** What the masked comparison sees. *)
Lemma compare_ok r d m nc dc : implements (fields r) wr rd bits done -> Good r d -> length nc = length (fields r) ->
  scan W (combine (fields r) nc) m 0 (fun _ => false) = Some dc ->
  Z.land (snd (fst (rd d m))) (Z.lnot (mask_of W dc)) = Z.land (reg_get r) (Z.lnot (mask_of W dc)).
Proof.
  intros HI (Hn & HR & HS) HL Hscan.
  assert (Hfst : map fst (combine (fields r) nc) = fields r).
  { clear -HL. revert nc HL. induction (fields r); intros [|] H; try discriminate; cbn; auto. f_equal. apply IHl. cbn in H. lia. }
  destruct HR as [HC HF]. assert (HR : ready (fields r)) by now split.
  apply scan_spec in Hscan.
  2: now rewrite Hfst.
  2: { apply Forall_map with (f := fst) (P := fun f => 0 <= lsb f). rewrite Hfst. eapply Forall_impl; [|exact HF]. cbn. tauto. }
  2: { apply Forall_map with (f := fst) (P := fun f => 0 < size f). rewrite Hfst. eapply Forall_impl; [|exact HF]. cbn.
       intros f [[H _] _]. exact H. }
  destruct Hscan as [S1 S2]. destruct (ready_get r HR) as (_ & C1 & C2).
  apply Z.bits_inj'. intros i Hi. rewrite !Z.land_spec, !Z.lnot_spec, !mask_of_bit by auto.
  destruct (coverb (fields r) i) eqn:EC.
  - apply coverb_true in EC. destruct EC as (f & Hf & Hc).
    assert (Hfn : exists b, In (f, b) (combine (fields r) nc)).
    { rewrite <- Hfst in Hf. apply in_map_iff in Hf. destruct Hf as ([f0 b] & E & H). cbn in E. subst. eauto. }
    destruct Hfn as (b & Hb). destruct (S1 f b i Hb Hc) as [E1 E2]. rewrite E1.
    destruct (dont_care b f m) eqn:ED.
    + replace (i <? W) with true by lia. now rewrite !andb_false_r.
    + rewrite andb_false_r, !andb_true_r. cbn. destruct (HS f Hf) as (s1 & s2 & s3).
      rewrite (C1 f i Hf Hc). rewrite s1, (s3 i Hc).
      apply (i_seen _ _ _ _ _ HI d m f i Hf Hc). eapply dont_care_unread; eauto.
  - assert (HN := proj1 (coverb_false _ _) EC). rewrite C2 by auto. rewrite (i_unused _ _ _ _ _ HI) by auto. reflexivity.
Qed.

Lemma combine_shape m nc : forall fs fs', map shape fs' = map shape fs -> forall next dc,
  scan W (combine fs' nc) m next dc = scan W (combine fs nc) m next dc.
Proof.
  revert nc. intros nc fs. revert nc. induction fs as [|f fs IH]; intros nc [|f' fs'] HS next dc; try discriminate; auto.
  destruct nc as [|b nc]; auto. cbn [combine scan]. cbn in HS.
  assert (H1 : shape f' = shape f) by congruence. assert (H2 : map shape fs' = map shape fs) by congruence.
  apply shape_eq in H1 as H1'. destruct H1' as (e1 & e2 & e3). rewrite e1, e2.
  unfold dont_care. rewrite (shape_access f' f m H1). destruct (W <? _); auto.
Qed.

Lemma once_sound r d m nc dc k : implements (fields r) wr rd bits done -> via_ok (fields r) m -> Good r d ->
  length nc = length (fields r) -> scan W (combine (fields r) nc) m 0 (fun _ => false) = Some dc ->
  exists r' d', bash_once wr rd r d m k (mask_of W dc) = (r', d', []) /\ n_bits r' = n_bits r /\
    map shape (fields r') = map shape (fields r) /\ Good r' d'.
Proof.
  intros HI HV HG HL HS. unfold bash_once.
  destruct (write_sync r d m (Z.lxor (reg_get r) (Z.shiftl 1 k)) HI HV HG) as (r1 & E1 & n1 & sh1 & G1). rewrite E1.
  set (bv := Z.land _ _) in *. pose proof (i_wok _ _ _ _ _ HI d m bv) as Hok. destruct (wr d m bv) as [d1 s1].
  cbn [fst snd] in *. subst s1.
  assert (HI1 : implements (fields r1) wr rd bits done) by (eapply implements_shape; [symmetry; exact sh1|auto]).
  assert (HL1 : length nc = length (fields r1)).
  { rewrite HL. rewrite <- (map_length shape (fields r)), <- sh1. apply map_length. }
  pose proof (compare_ok r1 d1 m nc dc HI1 G1 HL1) as HC. rewrite (combine_shape m nc _ _ sh1) in HC. specialize (HC HS).
  pose proof (read_sync r1 d1 m HI1 G1) as HRS. pose proof (i_rok _ _ _ _ _ HI1 d1 m) as Hrok.
  destruct (rd d1 m) as [[d2 v] s2]. cbn [fst snd] in *. subst s2. destruct HRS as (n2 & sh2 & G2).
  rewrite HC, Z.eqb_refl. eexists _, _. split; [reflexivity|]. split; [congruence|]. split; [congruence|exact G2].
Qed.
Lemma bit_sound r d m nc dc k : implements (fields r) wr rd bits done -> via_ok (fields r) m -> Good r d ->
  length nc = length (fields r) -> scan W (combine (fields r) nc) m 0 (fun _ => false) = Some dc ->
  exists r' d', bash_bit wr rd r d m k (mask_of W dc) = (r', d', []) /\ n_bits r' = n_bits r /\
    map shape (fields r') = map shape (fields r) /\ Good r' d'.
Proof.
  intros HI HV HG HL HS. unfold bash_bit.
  destruct (once_sound r d m nc dc k HI HV HG HL HS) as (r1 & d1 & E1 & n1 & sh1 & G1). rewrite E1.
  destruct (once_sound r1 d1 m nc dc k) as (r2 & d2 & E2 & n2 & sh2 & G2); auto.
  - eapply implements_shape; [symmetry; exact sh1|auto].
  - eapply via_ok_shape; eauto.
  - rewrite HL. rewrite <- (map_length shape (fields r)), <- sh1. apply map_length.
  - now rewrite (combine_shape m nc _ _ sh1).
  - rewrite E2. eexists _, _. split; [reflexivity|]. split; [congruence|]. split; [congruence|exact G2].
Qed.
Lemma bits_sound m nc dc : forall n k r d, implements (fields r) wr rd bits done -> via_ok (fields r) m -> Good r d ->
  length nc = length (fields r) -> scan W (combine (fields r) nc) m 0 (fun _ => false) = Some dc ->
  exists r' d' x, bash_bits wr rd W n k r d m dc = (r', d', [], x) /\ n_bits r' = n_bits r /\
    map shape (fields r') = map shape (fields r) /\ Good r' d' /\ (k + Z.of_nat n <= W -> x = false).
Proof.
  induction n as [|n IH]; intros k r d HI HV HG HL HS; cbn [bash_bits].
  - eexists _, _, _. split; [reflexivity|]. auto.
  - destruct (W <=? k) eqn:EW.
    { eexists _, _, _. split; [reflexivity|]. do 3 (split; auto). lia. }
    destruct (dc k).
    { destruct (IH (k + 1) r d) as (r' & d' & x & E & H1 & H2 & H3 & H4); auto. rewrite E.
      eexists _, _, _. split; [reflexivity|]. do 3 (split; auto). intros. apply H4. lia. }
    destruct (bit_sound r d m nc dc k HI HV HG HL HS) as (r1 & d1 & E1 & n1 & sh1 & G1). rewrite E1.
    destruct (IH (k + 1) r1 d1) as (r2 & d2 & x & E2 & n2 & sh2 & G2 & X2).
    + eapply implements_shape; [symmetry; exact sh1|auto].
    + eapply via_ok_shape; eauto.
    + auto.
    + rewrite HL. rewrite <- (map_length shape (fields r)), <- sh1. apply map_length.
    + now rewrite (combine_shape m nc _ _ sh1).
    + rewrite E2. eexists _, _, _. split; [reflexivity|]. split; [congruence|]. split; [congruence|]. split; [exact G2|]. intros. apply X2. lia.
Qed.

Lemma map_sound m nc r d : implements (fields r) wr rd bits done -> via_ok (fields r) m -> Good r d ->
  length nc = length (fields r) ->
  exists r' d' es x, bash_map wr rd W r nc d m = (r', d', es, x) /\ n_bits r' = n_bits r /\
    map shape (fields r') = map shape (fields r) /\ Good r' d' /\ (forall e, In e es -> e = BNoBits) /\
    (Forall (fun f => lsb f + size f <= W) (fields r) -> n_bytes r * 8 <= W -> x = false).
Proof.
  intros HI HV HG HL. unfold bash_map.
  destruct (scan W (combine (fields r) nc) m 0 (fun _ => false)) as [dc|] eqn:HS.
  - destruct (bits_sound m nc dc (Z.to_nat (n_bytes r * 8)) 0 r d HI HV HG HL HS) as (r' & d' & x & E & H1 & H2 & H3 & H4).
    rewrite E. eexists _, _, _, _. split; [reflexivity|]. do 3 (split; auto). split.
    + cbn [app]. destruct x; [intros ? []|]. destruct (forallb _ _); [|intros ? []]. now intros e [<-|[]].
    + intros _ HB. apply H4. destruct HG as [Hn _]. unfold n_bytes in *.
      assert (0 <= Z.quot (n_bits r - 1) 8 + 1).
      { destruct (Z.eq_dec (n_bits r) 0) as [->|]; [cbn; lia|]. assert (0 <= Z.quot (n_bits r - 1) 8) by (apply Z.quot_pos; lia). lia. }
      lia.
  - eexists _, _, _, _. split; [reflexivity|]. do 3 (split; auto). split. { intros ? []. }
    intros HF _. exfalso. destruct HG as (_ & [HC HF0] & _).
    assert (Hfst : map fst (combine (fields r) nc) = fields r).
    { clear -HL. revert nc HL. induction (fields r); intros [|] H; try discriminate; cbn; auto. f_equal. apply IHl. cbn in H. lia. }
    destruct (scan_some W m (combine (fields r) nc) 0 (fun _ => false)) as (dc & E); try congruence.
    + apply Forall_map with (f := fst) (P := fun f => 0 <= lsb f). rewrite Hfst. eapply Forall_impl; [|exact HF0]. cbn. tauto.
    + apply Forall_map with (f := fst) (P := fun f => 0 < size f). rewrite Hfst. eapply Forall_impl; [|exact HF0]. cbn.
      intros f [[H _] _]. exact H.
    + apply Forall_map with (f := fst) (P := fun f => lsb f + size f <= W). now rewrite Hfst.
Qed.

Lemma bash_sound : forall nc ms r d, implements (fields r) wr rd bits done ->
  Forall (via_ok (fields r)) ms -> Good r d -> length nc = length (fields r) ->
  exists r' d' es x, bash wr rd W r nc d ms = (r', d', es, x) /\ Good r' d' /\ (forall e, In e es -> e = BNoBits) /\
    (Forall (fun f => lsb f + size f <= W) (fields r) -> n_bytes r * 8 <= W -> x = false).
Proof.
  intros nc. induction ms as [|m ms IH]; intros r d HI HV HG HL; cbn [bash].
  - eexists _, _, _, _. split; [reflexivity|]. split; auto. split; auto. intros ? [].
  - inversion HV as [|? ? V1 V2]; subst.
    destruct (map_sound m nc r d HI V1 HG HL) as (r1 & d1 & e1 & x1 & E1 & n1 & sh1 & G1 & B1 & X1). rewrite E1.
    destruct x1.
    { eexists _, _, _, _. split; [reflexivity|]. auto. }
    destruct (IH r1 d1) as (r2 & d2 & e2 & x2 & E2 & G2 & B2 & X2); auto.
    + eapply implements_shape; [symmetry; exact sh1|auto].
    + eapply Forall_impl; [|exact V2]. intros m'. now apply via_ok_shape.
    + rewrite HL. rewrite <- (map_length shape (fields r)), <- sh1. apply map_length.
    + rewrite E2. eexists _, _, _, _. split; [reflexivity|]. split; auto. split.
      * intros e He. apply in_app_or in He. destruct He; auto.
      * intros HF HB. apply X2.
        -- rewrite Forall_forall in *. intros f Hf. destruct (shapes_in (fields r1) (fields r) f) as (g & Hg & E); auto.
           apply shape_eq in E. specialize (HF g Hg). lia.
        -- unfold n_bytes in *. now rewrite n1.
Qed.
End Sound.

(** ** Detection *)
Lemma keep_bit fs v i : 0 <= i -> Forall (fun f => 0 < size f /\ 0 <= lsb f) fs ->
  Z.testbit (keep fs v) i = coverb fs i && Z.testbit v i.
Proof.
  intros Hi. induction 1 as [|f fs [Hs Hl] HF IH]; cbn [keep coverb existsb]; [apply Z.bits_0|].
  rewrite Z.lor_spec, Z.land_spec, IH. fold (coverb fs i).
  replace (Z.testbit (Z.shiftl (Z.ones (size f)) (lsb f)) i) with ((lsb f <=? i) && (i <? lsb f + size f)).
  - destruct (Z.testbit v i), ((lsb f <=? i) && (i <? lsb f + size f)), (coverb fs i); reflexivity.
  - rewrite Z.shiftl_spec by auto. destruct (Z.lt_ge_cases i (lsb f)).
    + rewrite Z.testbit_neg_r by lia. lia.
    + destruct (Z.lt_ge_cases (i - lsb f) (size f)); [rewrite ones_bit by lia|rewrite Z.ones_spec_high by lia]; lia.
Qed.

Section Detect.
Context (F : Z -> Z) (W : Z).
Notation M := (Map RtRW).
Notation once := (bash_once echo_wr (echo_rd F)).

Definition RWreg (r : reg) : Prop :=
  ready (fields r) /\ Forall (fun f => access f = RW /\ desired f = mirrored f /\ lsb f + size f <= n_bits r) (fields r).
Lemma RW_pos r : RWreg r -> Forall (fun f => 0 < size f /\ 0 <= lsb f) (fields r).
Proof. intros [[_ H] _]. eapply Forall_impl; [|exact H]. cbn. intros f [[H1 _] H2]. auto. Qed.
Lemma RW_cover r i : RWreg r -> coverb (fields r) i = true -> 0 <= i < n_bits r.
Proof. clear F W.
  intros HR H. apply coverb_true in H. destruct H as (f & Hf & Hc). assert (HP := RW_pos r HR). destruct HR as [_ HF].
  rewrite Forall_forall in *. specialize (HF f Hf). specialize (HP f Hf). unfold covers in Hc. lia.
Qed.
Lemma coverb_shape fs fs' i : map shape fs' = map shape fs -> coverb fs' i = coverb fs i.
Proof.
  intros HS. apply eq_true_iff_eq. rewrite !coverb_true. split; intros (f & Hf & Hc).
  - destruct (shapes_in fs' fs f) as (g & Hg & E); auto. exists g. split; auto. exact (shape_covers f g i (eq_sym E) Hc).
  - destruct (shapes_in fs fs' f) as (g & Hg & E); auto. exists g. split; auto. exact (shape_covers f g i (eq_sym E) Hc).
Qed.
Lemma get_bits r i : ready (fields r) -> 0 <= i -> Z.testbit (reg_get r) i = true -> coverb (fields r) i = true.
Proof.
  intros HR Hi Hb. destruct (ready_get r HR) as (_ & _ & H). apply not_false_iff_true. intros E.
  rewrite H in Hb; auto; [discriminate|]. now apply coverb_false.
Qed.

Lemma RW_write r v : 0 <= n_bits r -> RWreg r ->
  exists r', reg_write r v M = (Z.land v (Z.ones (n_bits r)), r') /\ n_bits r' = n_bits r /\
    map shape (fields r') = map shape (fields r) /\ RWreg r' /\ reg_get r' = keep (fields r) (Z.land v (Z.ones (n_bits r))).
Proof. clear F W.
  intros Hn HR. assert (HP := RW_pos r HR). destruct (write_full r v M Hn (proj1 HR)) as (r' & E & En & H2).
  exists r'. split; auto. split; auto. set (bv := Z.land v (Z.ones (n_bits r))) in *.
  assert (Hsh : map shape (fields r') = map shape (fields r)).
  { apply (F2_shape (fun _ _ => True)). eapply F2_impl; [|exact H2]. cbn. tauto. }
  split; auto. destruct HR as [HR HF].
  assert (HR' : ready (fields r')).
  { eapply ready_next; eauto. apply Forall_forall. intros f' Hf'.
    destruct (F2_in_r _ _ _ _ H2 Hf') as (f & _ & _ & HH & _). auto. }
  split.
  - split; auto. apply Forall_forall. intros f' Hf'. rewrite Forall_forall in HF.
    destruct (F2_in_r _ _ _ _ H2 Hf') as (f & Hf & (w1 & w2 & w3 & w4 & w5 & w6 & w7 & _) & _).
    destruct (HF f Hf) as (a1 & a2 & a3). rewrite w1, w2, w3, En. auto.
  - destruct (ready_get r' HR') as (_ & C1 & C2). apply Z.bits_inj'. intros i Hi. rewrite keep_bit by auto.
    destruct (coverb (fields r) i) eqn:EC; cbn [andb].
    + rewrite <- (coverb_shape _ _ i Hsh) in EC. apply coverb_true in EC. destruct EC as (f' & Hf' & Hc).
      rewrite (C1 f' i Hf' Hc). destruct (F2_in_r _ _ _ _ H2 Hf') as (f & Hf & (w1 & w2 & w3 & w4 & w5 & w6 & w7 & w8 & w9) & _).
      rewrite w7, w2. unfold covers in Hc. rewrite w9 by lia. rewrite Forall_forall in HF. destruct (HF f Hf) as (a1 & _).
      cbn [get_access]. rewrite a1. cbn. f_equal. lia.
    + apply C2; auto. rewrite <- (coverb_shape _ _ i Hsh) in EC. now apply coverb_false.
Qed.
Lemma RW_read r v : RWreg r -> RWreg (reg_read r v M) /\ n_bits (reg_read r v M) = n_bits r /\
    map shape (fields (reg_read r v M)) = map shape (fields r) /\ reg_get (reg_read r v M) = keep (fields r) v.
Proof.
  intros HR. assert (HP := RW_pos r HR). destruct (read_full r v M (proj1 HR)) as (r' & E & En & H2). rewrite E.
  assert (Hsh : map shape (fields r') = map shape (fields r)).
  { apply (F2_shape (fun _ _ => True)). eapply F2_impl; [|exact H2]. cbn. tauto. }
  destruct HR as [HR HF].
  assert (HR' : ready (fields r')).
  { eapply ready_next; eauto. apply Forall_forall. intros f' Hf'.
    destruct (F2_in_r _ _ _ _ H2 Hf') as (f & _ & _ & _ & _ & HH & _). auto. }
  split; [|split; [auto|split; [auto|]]].
  - split; auto. apply Forall_forall. intros f' Hf'. rewrite Forall_forall in HF.
    destruct (F2_in_r _ _ _ _ H2 Hf') as (f & Hf & w1 & w2 & w3 & w4 & w5). apply shape_eq in w5.
    destruct (HF f Hf) as (a1 & a2 & a3). destruct w5 as (-> & -> & ->). rewrite En. auto.
  - destruct (ready_get r' HR') as (_ & C1 & C2). apply Z.bits_inj'. intros i Hi. rewrite keep_bit by auto.
    destruct (coverb (fields r) i) eqn:EC; cbn [andb].
    + rewrite <- (coverb_shape _ _ i Hsh) in EC. apply coverb_true in EC. destruct EC as (f' & Hf' & Hc).
      rewrite (C1 f' i Hf' Hc). destruct (F2_in_r _ _ _ _ H2 Hf') as (f & Hf & w1 & w2 & w3 & w4 & w5).
      rewrite Forall_forall in HF. destruct (HF f Hf) as (a1 & a2 & _). apply shape_eq in w5. destruct w5 as (e1 & e2 & e3).
      rewrite w2, e2 by auto. unfold covers in Hc. rewrite w1 by lia.
      cbn [get_access]. rewrite a1. cbn. f_equal. lia.
    + apply C2; auto. rewrite <- (coverb_shape _ _ i Hsh) in EC. now apply coverb_false.
Qed.

Lemma keep_shape fs fs' v : map shape fs' = map shape fs -> keep fs' v = keep fs v.
Proof.
  revert fs'. induction fs as [|f fs IH]; intros [|f' fs'] H; try discriminate; auto. cbn in H.
  assert (H1 : shape f' = shape f) by congruence. apply shape_eq in H1. destruct H1 as (e1 & e2 & _).
  cbn [keep]. rewrite e1, e2, IH; auto. congruence.
Qed.

(** What is written when bit [k] is changed *)
Definition flip (r : reg) (k : Z) : Z := Z.land (Z.lxor (reg_get r) (Z.shiftl 1 k)) (Z.ones (n_bits r)).

Lemma RW_once r d k : 0 <= n_bits r -> RWreg r ->
  exists r' es, once r d M k 0 = (r', flip r k, es) /\ n_bits r' = n_bits r /\
    map shape (fields r') = map shape (fields r) /\ RWreg r' /\ reg_get r' = keep (fields r) (F (flip r k)) /\
    (es = [] <-> F (flip r k) = keep (fields r) (flip r k)).
Proof.
  intros Hn HR. unfold bash_once. fold (flip r k).
  destruct (RW_write r (Z.lxor (reg_get r) (Z.shiftl 1 k)) Hn HR) as (r1 & E1 & n1 & sh1 & R1 & g1). rewrite E1.
  fold (flip r k) in *. unfold echo_wr, echo_rd. change (Z.lnot 0) with (-1). rewrite !Z.land_m1_r, g1.
  destruct (RW_read r1 (F (flip r k)) R1) as (R2 & n2 & sh2 & g2).
  eexists _, _. split; [reflexivity|]. split; [congruence|]. split; [congruence|]. split; auto. split.
  - rewrite g2. now apply keep_shape.
  - cbn [app]. destruct (Z.eqb_spec (F (flip r k)) (keep (fields r) (flip r k))); split; intros; auto; try discriminate; contradiction.
Qed.

Lemma flip_get r k : 0 <= k -> 0 <= n_bits r -> RWreg r ->
  keep (fields r) (flip r k) = if coverb (fields r) k then Z.lxor (reg_get r) (Z.shiftl 1 k) else reg_get r.
Proof. clear F W.
  intros Hk Hn HR. apply Z.bits_inj'. intros i Hi. rewrite keep_bit by (auto; now apply RW_pos).
  unfold flip. rewrite Z.land_spec, Z.lxor_spec, Z.shiftl_1_l, Z.pow2_bits_eqb by auto.
  destruct (coverb (fields r) i) eqn:EC; cbn [andb].
  - pose proof (RW_cover r i HR EC). rewrite ones_bit, andb_true_r by lia.
    destruct (Z.eqb_spec k i) as [->|Hne].
    + rewrite EC. now rewrite Z.lxor_spec, Z.pow2_bits_eqb, Z.eqb_refl by auto.
    + rewrite xorb_false_r. destruct (coverb (fields r) k); auto. rewrite Z.lxor_spec, Z.pow2_bits_eqb by auto.
      replace (k =? i) with false by lia. now rewrite xorb_false_r.
  - assert (Hg : Z.testbit (reg_get r) i = false).
    { destruct (Z.testbit (reg_get r) i) eqn:E; auto. apply get_bits in E; auto; [congruence|apply HR]. }
    destruct (coverb (fields r) k) eqn:EK; auto. rewrite Z.lxor_spec, Z.pow2_bits_eqb, Hg by auto.
    replace (k =? i) with false; auto. symmetry. apply Z.eqb_neq. intros ->. congruence.
Qed.
Lemma keep_get r : RWreg r -> keep (fields r) (reg_get r) = reg_get r.
Proof.
  intros HR. apply Z.bits_inj'. intros i Hi. rewrite keep_bit by (auto; now apply RW_pos).
  destruct (Z.testbit (reg_get r) i) eqn:E; [|apply andb_false_r]. apply get_bits in E; auto; [|apply HR]. now rewrite E.
Qed.
Lemma keep_keep fs v : Forall (fun f => 0 < size f /\ 0 <= lsb f) fs -> keep fs (keep fs v) = keep fs v.
Proof. intros H. apply Z.bits_inj'. intros i Hi. rewrite !keep_bit by auto. now destruct (coverb fs i). Qed.
Lemma get_ones r : 0 <= n_bits r -> RWreg r -> Z.land (reg_get r) (Z.ones (n_bits r)) = reg_get r.
Proof. clear F W.
  intros Hn HR. apply Z.bits_inj'. intros i Hi. rewrite Z.land_spec.
  destruct (Z.testbit (reg_get r) i) eqn:E; auto. apply get_bits in E; auto; [|apply HR].
  pose proof (RW_cover r i HR E). now rewrite ones_bit by lia.
Qed.

Definition bit_ok (r : reg) (k : Z) : Prop :=
  F (flip r k) = keep (fields r) (flip r k) /\ (coverb (fields r) k = true -> F (reg_get r) = reg_get r).
Lemma RW_bit r d k : 0 <= k -> 0 <= n_bits r -> RWreg r ->
  exists r' d' es, bash_bit echo_wr (echo_rd F) r d M k 0 = (r', d', es) /\ n_bits r' = n_bits r /\
    map shape (fields r') = map shape (fields r) /\ RWreg r' /\
    (es = [] <-> bit_ok r k) /\ (es = [] -> reg_get r' = reg_get r).
Proof.
  intros Hk Hn HR. unfold bash_bit. destruct (RW_once r d k Hn HR) as (r1 & e1 & E1 & n1 & sh1 & R1 & g1 & x1). rewrite E1.
  assert (Hn1 : 0 <= n_bits r1) by lia. destruct (RW_once r1 (flip r k) k Hn1 R1) as (r2 & e2 & E2 & n2 & sh2 & R2 & g2 & x2).
  rewrite E2. eexists _, _, _. split; [reflexivity|]. split; [congruence|]. split; [congruence|]. split; auto.
  assert (HP := RW_pos r HR).
  assert (K : forall v, keep (fields r1) v = keep (fields r) v) by (intros; now apply keep_shape).
  rewrite K in g2, x2.
  (* after a good first turn *)
  assert (HX : F (flip r k) = keep (fields r) (flip r k) ->
     if coverb (fields r) k then flip r1 k = reg_get r else flip r1 k = flip r k /\ reg_get r1 = reg_get r).
  { intros HF. rewrite HF, keep_keep, flip_get in g1 by auto. destruct (coverb (fields r) k).
    - unfold flip. rewrite g1, n1. rewrite Z.lxor_assoc, Z.lxor_nilpotent, Z.lxor_0_r. now apply get_ones.
    - split; auto. unfold flip. now rewrite g1, n1. }
  unfold bit_ok. destruct (coverb (fields r) k) eqn:EC.
  - split; [split|].
    + intros H. apply app_eq_nil in H. destruct H as [-> ->]. assert (H1 := proj1 x1 eq_refl). assert (H2 := proj1 x2 eq_refl).
      split; auto. intros _. rewrite (HX H1), keep_get in H2; auto.
    + intros [H1 H2]. rewrite (proj2 x1 H1). cbn [app]. apply x2. rewrite (HX H1), keep_get by auto. auto.
    + intros H. apply app_eq_nil in H. destruct H as [-> ->]. assert (H1 := proj1 x1 eq_refl). assert (H2 := proj1 x2 eq_refl).
      rewrite g2, H2, keep_keep, (HX H1) by auto. now apply keep_get.
  - split; [split|].
    + intros H. apply app_eq_nil in H. destruct H as [-> ->]. split; [now apply x1|discriminate].
    + intros [H1 _]. rewrite (proj2 x1 H1). cbn [app]. apply x2. destruct (HX H1) as [-> _]. auto.
    + intros H. apply app_eq_nil in H. destruct H as [-> ->]. assert (H1 := proj1 x1 eq_refl). destruct (HX H1) as [HX1 HX2].
      rewrite g2, HX1, H1, keep_keep, flip_get, EC by auto. reflexivity.
Qed.

Lemma RW_bits dc : (forall k, dc k = false) -> mask_of W dc = 0 -> forall n k r d, 0 <= k -> 0 <= n_bits r -> RWreg r -> k + Z.of_nat n <= W ->
  exists r' d' es, bash_bits echo_wr (echo_rd F) W n k r d M dc = (r', d', es, false) /\
    (es = [] <-> forall j, k <= j < k + Z.of_nat n -> bit_ok r j).
Proof.
  intros Hdc Hm. induction n as [|n IH]; intros k r d Hk Hn HR HW; cbn [bash_bits].
  - eexists _, _, _. split; [reflexivity|]. split; auto. lia.
  - replace (W <=? k) with false by lia. rewrite Hdc, Hm.
    destruct (RW_bit r d k Hk Hn HR) as (r1 & d1 & e1 & E1 & n1 & sh1 & R1 & x1 & y1). rewrite E1.
    destruct (IH (k + 1) r1 d1) as (r2 & d2 & e2 & E2 & x2); auto; try lia. rewrite E2.
    eexists _, _, _. split; [reflexivity|].
    assert (HB : e1 = [] -> forall j, bit_ok r1 j <-> bit_ok r j).
    { intros He j. specialize (y1 He). unfold bit_ok, flip. rewrite n1, y1, (coverb_shape _ _ j sh1).
      rewrite (keep_shape (fields r) (fields r1)) by auto. reflexivity. }
    split.
    + intros H. apply app_eq_nil in H. destruct H as [-> ->]. intros j Hj.
      destruct (Z.eq_dec j k) as [->|]; [now apply x1|]. apply (HB eq_refl). apply (proj1 x2 eq_refl). lia.
    + intros H. assert (H1 : e1 = []) by (apply x1; apply H; lia). rewrite H1. apply x2. intros j Hj.
      apply (HB H1). apply H. lia.
Qed.

Lemma RW_bash r d : 0 < n_bits r -> RWreg r -> n_bytes r * 8 <= W ->
  exists r' d' es, bash echo_wr (echo_rd F) W r (map (fun _ => false) (fields r)) d [M] = (r', d', es, false) /\
   (es = [] <-> forall k, 0 <= k < 8 * n_bytes r -> bit_ok r k).
Proof.
  intros Hn HR HW. cbn [bash]. unfold bash_map.
  assert (Hb : 1 <= n_bytes r /\ n_bits r <= n_bytes r * 8).
  { unfold n_bytes. rewrite Z.quot_div_nonneg by lia. pose proof (Z.div_mod (n_bits r - 1) 8). pose proof (Z.mod_pos_bound (n_bits r - 1) 8).
    pose proof (Z.div_pos (n_bits r - 1) 8). lia. }
  assert (Hfst : map fst (combine (fields r) (map (fun _ => false) (fields r))) = fields r).
  { clear. induction (fields r); cbn; congruence. }
  assert (HP := RW_pos r HR). destruct HR as [[HC HF0] HF]. assert (HR : RWreg r) by (split; auto; split; auto).
  set (cf := combine (fields r) (map (fun _ => false) (fields r))) in *.
  assert (P1 : Forall (fun x => 0 <= lsb (fst x)) cf).
  { apply Forall_map with (f := fst) (P := fun f => 0 <= lsb f). rewrite Hfst. eapply Forall_impl; [|exact HP]. cbn. tauto. }
  assert (P2 : Forall (fun x => 0 < size (fst x)) cf).
  { apply Forall_map with (f := fst) (P := fun f => 0 < size f). rewrite Hfst. eapply Forall_impl; [|exact HP]. cbn. tauto. }
  destruct (scan_some W M cf 0 (fun _ => false)) as (dc & ED); auto; [now rewrite Hfst| |].
  { apply Forall_map with (f := fst) (P := fun f => lsb f + size f <= W). rewrite Hfst. eapply Forall_impl; [|exact HF]. cbn. intros f (_ & _ & H). lia. }
  rewrite ED. apply scan_spec in ED; auto; [|now rewrite Hfst]. destruct ED as [S1 S2].
  assert (Hdc : forall k, dc k = false).
  { intros k. destruct (coverb (fields r) k) eqn:EC.
    - apply coverb_true in EC. destruct EC as (f & Hf & Hc). assert (Hf' := Hf). rewrite <- Hfst in Hf'. apply in_map_iff in Hf'.
      destruct Hf' as ([f0 b] & E & Hin). cbn in E. subst f0. destruct (S1 f b k Hin Hc) as [-> _].
      unfold cf in Hin. apply in_combine_r in Hin. apply in_map_iff in Hin. destruct Hin as (_ & <- & _).
      rewrite Forall_forall in HF. destruct (HF f Hf) as (a1 & _). unfold dont_care. cbn [get_access]. rewrite a1. reflexivity.
    - rewrite S2; auto. intros x Hx. apply (proj1 (coverb_false _ _) EC). rewrite <- Hfst. now apply in_map. }
  destruct (RW_bits dc Hdc) with (n := Z.to_nat (n_bytes r * 8)) (k := 0) (r := r) (d := d) as (r' & d' & es & E & x); auto; try lia.
  { apply Z.bits_inj'. intros i Hi. rewrite mask_of_bit, Hdc, andb_false_r, Z.bits_0 by auto. auto. }
  rewrite E. eexists _, _, _. split; [reflexivity|].
  replace (forallb (fun i => dc (Z.of_nat i)) (seq 0 (Z.to_nat (n_bytes r * 8)))) with false.
  2: { destruct (Z.to_nat (n_bytes r * 8)) eqn:EE; [lia|]. cbn [seq forallb]. now rewrite Hdc. }
  rewrite !app_nil_r. rewrite x. split; intros H k Hk; apply H; lia.
Qed.
End Detect.

Lemma wired_iff F r : wired F -> 0 < n_bits r -> RWreg r ->
  ((forall k, 0 <= k < 8 * n_bytes r -> bit_ok F r k) <-> forall v, 0 <= v < 2 ^ n_bits r -> F v = keep (fields r) v).
Proof.
  intros (from & const & HF) Hn HR. assert (HP := RW_pos r HR).
  assert (Hb : 1 <= n_bytes r /\ n_bits r <= n_bytes r * 8).
  { unfold n_bytes. rewrite Z.quot_div_nonneg by lia. pose proof (Z.div_mod (n_bits r - 1) 8). pose proof (Z.mod_pos_bound (n_bits r - 1) 8).
    pose proof (Z.div_pos (n_bits r - 1) 8). lia. }
  set (n := n_bits r) in *. set (g := reg_get r).
  assert (Hfl : forall k j, 0 <= k -> 0 <= j -> Z.testbit (flip r k) j = (j <? n) && xorb (Z.testbit g j) (k =? j)).
  { intros k j Hk Hj. unfold flip. fold n g. rewrite Z.land_spec, Z.lxor_spec, Z.shiftl_1_l, Z.pow2_bits_eqb by auto.
    destruct (j <? n) eqn:E; [rewrite ones_bit by lia|rewrite Z.ones_spec_high by lia]; [now rewrite andb_true_r|apply andb_false_r]. }
  assert (Hg : forall j, 0 <= j -> coverb (fields r) j = false -> Z.testbit g j = false).
  { intros j Hj HC. destruct (Z.testbit g j) eqn:E; auto. apply get_bits in E; auto; [congruence|apply HR]. }
  assert (Hgh : forall j, n <= j -> Z.testbit g j = false).
  { intros j Hj. apply Hg; [lia|]. destruct (coverb (fields r) j) eqn:E; auto. apply RW_cover in E; auto. fold n in E. lia. }
  assert (Hfit : forall v, 0 <= v < 2 ^ n -> forall j, n <= j -> Z.testbit v j = false).
  { intros v Hv. apply (fits_bits n v); [lia|exact Hv]. }
  split.
  - intros HB v Hv.
    assert (HB1 : forall k i, 0 <= k < n -> 0 <= i -> Z.testbit (F (flip r k)) i = coverb (fields r) i && Z.testbit (flip r k) i).
    { intros k i Hk Hi. destruct (HB k) as [-> _]; [lia|]. now apply keep_bit. }
    assert (HB2 : forall i j, coverb (fields r) j = true -> 0 <= i -> Z.testbit (F g) i = Z.testbit g i).
    { intros i j Hj Hi. pose proof (RW_cover r j HR Hj) as Hjn. fold n in Hjn. destruct (HB j) as [_ HG]; [lia|]. specialize (HG Hj). fold g in HG. now rewrite HG. }
    apply Z.bits_inj'. intros i Hi. rewrite keep_bit, HF by auto. destruct (coverb (fields r) i) eqn:EC; cbn [andb].
    + pose proof (RW_cover r i HR EC) as Hin. fold n in Hin. specialize (HB1 i i Hin Hi). specialize (HB2 i i EC Hi).
      rewrite HF in HB1, HB2 by auto. rewrite EC in HB1. rewrite (Hfl i i) in HB1 by lia.
      replace (i <? n) with true in HB1 by lia. rewrite Z.eqb_refl in HB1. cbn [andb] in HB1.
      destruct (from i) as [j|].
      * destruct (Z.eq_dec j i) as [->|Hne]; auto. exfalso.
        assert (E : Z.testbit (flip r i) j = Z.testbit g j).
        { destruct (Z.lt_ge_cases j 0); [now rewrite !Z.testbit_neg_r|]. rewrite Hfl by lia.
          replace (i =? j) with false by lia. rewrite xorb_false_r. destruct (j <? n) eqn:En; auto. symmetry. apply Hgh. lia. }
        rewrite E in HB1. rewrite HB2 in HB1. destruct (Z.testbit g i); discriminate.
      * exfalso. rewrite HB2 in HB1. destruct (Z.testbit g i); discriminate.
    + destruct (from i) as [j|] eqn:EF.
      * destruct (Z.lt_ge_cases j 0); [now rewrite Z.testbit_neg_r|].
        destruct (Z.lt_ge_cases j n); [|now apply Hfit]. exfalso.
        specialize (HB1 j i ltac:(lia) Hi). rewrite HF, EF, EC, Hfl in HB1 by lia. replace (j <? n) with true in HB1 by lia.
        rewrite Z.eqb_refl in HB1. cbn [andb] in HB1. destruct (coverb (fields r) j) eqn:EJ.
        -- specialize (HB2 i j EJ Hi). rewrite HF, EF, (Hg i) in HB2 by auto. rewrite HB2 in HB1. discriminate.
        -- rewrite (Hg j) in HB1 by auto. discriminate.
      * specialize (HB1 0 i ltac:(lia) Hi). now rewrite HF, EF, EC in HB1.
  - intros HV k Hk. split.
    + apply HV. apply (fits_land_mask n (Z.lxor (reg_get r) (Z.shiftl 1 k))). lia.
    + intros _. rewrite HV; [now apply keep_get|]. rewrite <- get_ones by (auto; lia). fold n. apply fits_land_mask. lia.
Qed.

(** ** Blocks *)
Section Blocks.
Local Open Scope nat_scope.
Section Ind.
Variable P : blk -> Prop.
Variable step : forall b, Forall P (subs b) -> P b.
Fixpoint blk_rec2 (b : blk) : P b :=
  match b with
  | Blk i o m s => step (Blk i o m s)
      ((fix go (l : list blk) : Forall P l := match l with [] => Forall_nil _ | c :: l => Forall_cons _ (blk_rec2 c) (go l) end) s)
  end.
End Ind.
Lemma get_blocks_eq b : get_blocks b = flat_map (fun c => c :: get_blocks c) (subs b).
Proof.
  destruct b as [i o m s]. reflexivity.
Qed.
Lemma ids_eq b : ids b = bid b :: flat_map ids (subs b).
Proof. destruct b as [i o m s]. cbn. f_equal. Qed.
Lemma height_sub b c : In c (subs b) -> height c < height b.
Proof.
  destruct b as [i o m s]. cbn. induction s as [|c' s IH]; cbn; [intros []|]. intros [->|H]; [lia|]. specialize (IH H). lia.
Qed.
Lemma height_blocks b : forall c, In c (get_blocks b) -> height c < height b.
Proof.
  revert b. apply (blk_rec2 (fun b => forall c, In c (get_blocks b) -> height c < height b)). intros b IH c Hc.
  rewrite get_blocks_eq in Hc. apply in_flat_map in Hc. destruct Hc as (a & Ha & [<-|Hc]).
  - now apply height_sub.
  - rewrite Forall_forall in IH. specialize (IH a Ha c Hc). apply height_sub in Ha. lia.
Qed.

Variable times : blk -> nat.
(** what is tested from a block, and from it and all below *)
Fixpoint hv (b : blk) : list nat * list nat :=
  let 'Blk i o m s := b in
  let below := flat_map (fun c => snd (hv c)) s in
  let v := concat (repeat (i :: below) (times b)) in
  (v, v ++ below).
Definition V b := fst (hv b).
Definition H b := snd (hv b).
Lemma V_eq b : V b = concat (repeat (bid b :: flat_map H (subs b)) (times b)).
Proof. destruct b as [i o m s]. reflexivity. Qed.
Lemma H_eq b : H b = V b ++ flat_map H (subs b).
Proof. destruct b as [i o m s]. reflexivity. Qed.

Lemma each_app f l1 l2 x1 x2 : each f l1 = Some x1 -> each f l2 = Some x2 -> each f (l1 ++ l2) = Some (x1 ++ x2).
Proof.
  revert x1. induction l1 as [|b l1 IH]; cbn; intros x1 E1 E2; [injection E1 as <-; auto|].
  destruct (f b); [|discriminate]. destruct (each f l1); [|discriminate]. injection E1 as <-. rewrite (IH _ eq_refl E2).
  now rewrite app_assoc.
Qed.
Lemma each_H f : forall b, (forall c, In c (b :: get_blocks b) -> f c = Some (V c)) -> each f (b :: get_blocks b) = Some (H b).
Proof.
  apply (blk_rec2 (fun b => (forall c, In c (b :: get_blocks b) -> f c = Some (V c)) -> each f (b :: get_blocks b) = Some (H b))).
  intros b IH Hf. cbn [each]. rewrite (Hf b) by now left.
  assert (E : each f (get_blocks b) = Some (flat_map H (subs b))).
  { rewrite get_blocks_eq in *. revert IH Hf. induction (subs b) as [|c s IHs]; intros IH Hf; auto. cbn [flat_map].
    inversion IH as [|? ? IH1 IH2]; subst. apply each_app.
    - apply IH1. intros x Hx. apply Hf. right. cbn [flat_map]. apply in_or_app. now left.
    - apply IHs; auto. intros x Hx. apply Hf. destruct Hx as [Hx|Hx]; [now left|]. right. cbn [flat_map]. apply in_or_app. now right. }
  rewrite E, H_eq. reflexivity.
Qed.
Lemma each_below f b : (forall c, In c (get_blocks b) -> f c = Some (V c)) -> each f (get_blocks b) = Some (flat_map H (subs b)).
Proof.
  intros Hf. rewrite get_blocks_eq in *. induction (subs b) as [|c s IHs]; auto. cbn [flat_map] in *. apply each_app.
  - apply each_H. intros x Hx. apply Hf. apply in_or_app. now left.
  - apply IHs. intros x Hx. apply Hf. apply in_or_app. now right.
Qed.

Lemma H_ids b : forall y, In y (H b) -> In y (ids b).
Proof.
  revert b. apply (blk_rec2 (fun b => forall y, In y (H b) -> In y (ids b))). intros b IH y Hy.
  rewrite ids_eq. rewrite Forall_forall in IH.
  assert (HS : In y (flat_map H (subs b)) -> In y (flat_map ids (subs b))).
  { rewrite !in_flat_map. intros (c & Hc & Hy'). exists c. auto. }
  rewrite H_eq in Hy. apply in_app_or in Hy. destruct Hy as [Hy|Hy]; [|right; auto].
  rewrite V_eq in Hy. apply in_concat in Hy. destruct Hy as (l & Hl & Hy). apply repeat_spec in Hl. subst l.
  destruct Hy as [->|Hy]; [now left|right; auto].
Qed.

Notation cnt := (count_occ Nat.eq_dec).
Lemma cnt_repeat l n y : cnt (concat (repeat l n)) y = n * cnt l y.
Proof. induction n as [|n IH]; auto. cbn [repeat concat]. rewrite count_occ_app, IH. reflexivity. Qed.
Lemma cnt_0 b y : ~ In y (ids b) -> cnt (H b) y = 0.
Proof. intros Hn. apply count_occ_not_In. intros Hy. apply Hn. now apply H_ids. Qed.
Lemma cnt_0s l y : ~ In y (flat_map ids l) -> cnt (flat_map H l) y = 0.
Proof.
  intros Hn. apply count_occ_not_In. intros Hy. apply Hn. rewrite in_flat_map in *. destruct Hy as (c & Hc & Hy).
  exists c. split; auto. now apply H_ids.
Qed.
Lemma down_ids b cs x : down b cs x -> In (bid x) (ids b).
Proof.
  induction 1 as [b|b c cs x Hc HD IH]; rewrite ids_eq; [now left|]. right. apply in_flat_map. eauto.
Qed.
Lemma NoDup_app_inv {A} (l1 l2 : list A) : NoDup (l1 ++ l2) -> NoDup l1 /\ NoDup l2 /\ forall x, In x l1 -> ~ In x l2.
Proof.
  induction l1 as [|a l1 IH]; cbn; intros HN; [split; [constructor|auto]|]. inversion HN as [|? ? N1 N2]; subst.
  destruct (IH N2) as (M1 & M2 & M3). split; [constructor; auto; intros Hi; apply N1; apply in_or_app; now left|].
  split; auto. intros x [->|Hx]; auto. intros Hi. apply N1. apply in_or_app. now right.
Qed.
Lemma cnt_sub l c y : NoDup (flat_map ids l) -> In c l -> In y (ids c) -> cnt (flat_map H l) y = cnt (H c) y.
Proof.
  induction l as [|a l IH]; intros HN Hc Hy; [destruct Hc|]. cbn [flat_map] in *. rewrite count_occ_app.
  apply NoDup_app_inv in HN. destruct HN as (N1 & N2 & N3). destruct Hc as [->|Hc].
  - rewrite (cnt_0s l) by auto. lia.
  - rewrite (IH N2 Hc Hy). rewrite (cnt_0 a); auto. intros Hi. apply (N3 y Hi). apply in_flat_map. eauto.
Qed.
Lemma NoDup_sub b c : NoDup (ids b) -> In c (subs b) -> NoDup (ids c).
Proof.
  rewrite ids_eq. intros HN Hc. inversion HN as [|? ? _ N2]; subst. revert N2 Hc. generalize (subs b).
  induction l as [|a l IH]; intros HN2 []; cbn [flat_map] in HN2; apply NoDup_app_inv in HN2; destruct HN2 as (N1 & N2 & _); subst; auto.
Qed.

Lemma cnt_here b : NoDup (ids b) -> cnt (V b) (bid b) = times b /\ cnt (flat_map H (subs b)) (bid b) = 0.
Proof.
  rewrite ids_eq. intros HN. inversion HN as [|? ? N1 N2]; subst.
  assert (E : cnt (flat_map H (subs b)) (bid b) = 0) by now apply cnt_0s. split; auto.
  rewrite V_eq, cnt_repeat. cbn. destruct (Nat.eq_dec (bid b) (bid b)); [|congruence]. rewrite E. lia.
Qed.
Lemma cnt_down b c cs x : NoDup (ids b) -> In c (subs b) -> down c cs x ->
  cnt (flat_map H (subs b)) (bid x) = cnt (H c) (bid x) /\ cnt (V b) (bid x) = times b * cnt (H c) (bid x).
Proof.
  intros HN Hc HD. pose proof (down_ids _ _ _ HD) as Hx. rewrite ids_eq in HN. inversion HN as [|? ? N1 N2]; subst.
  assert (E : cnt (flat_map H (subs b)) (bid x) = cnt (H c) (bid x)) by (apply cnt_sub; auto). split; auto.
  rewrite V_eq, cnt_repeat. cbn [count_occ]. destruct (Nat.eq_dec (bid b) (bid x)) as [Eb|]; [|now rewrite E].
  exfalso. apply N1. rewrite Eb. apply in_flat_map. eauto.
Qed.
Lemma cnt_H : forall cs c x, NoDup (ids c) -> down c cs x ->
  cnt (H c) (bid x) = match cs with [] => times x | _ => prod (map (fun b => S (times b)) (c :: removelast cs)) * times x end.
Proof.
  induction cs as [|c' cs IH]; intros c x HN HD; inversion HD as [|? ? ? ? Hc HD']; subst; rewrite H_eq, count_occ_app.
  - destruct (cnt_here x HN) as [-> ->]. lia.
  - destruct (cnt_down c c' cs x HN Hc HD') as [-> ->]. rewrite (IH c' x) by (auto; eapply NoDup_sub; eauto).
    destruct cs as [|c2 cs].
    + cbn. lia.
    + change (removelast (c' :: c2 :: cs)) with (c' :: removelast (c2 :: cs)).
      change (map (fun b => S (times b)) (c :: c' :: removelast (c2 :: cs))) with (S (times c) :: map (fun b => S (times b)) (c' :: removelast (c2 :: cs))).
      set (X := map _ (c' :: _)). cbn [prod]. lia.
Qed.
Lemma cnt_V b cs x : NoDup (ids b) -> down b cs x ->
  cnt (V b) (bid x) = match cs with [] => times b | _ => times b * prod (map (fun b => S (times b)) (removelast cs)) * times x end.
Proof.
  intros HN HD. inversion HD as [|? c ? ? Hc HD']; subst.
  - apply cnt_here; auto.
  - destruct (cnt_down b c _ x HN Hc HD') as [_ ->]. rewrite (cnt_H cs0 c x (NoDup_sub b c HN Hc) HD').
    destruct cs0 as [|c2 cs]; [cbn; lia|]. change (removelast (c :: c2 :: cs)) with (c :: removelast (c2 :: cs)). apply Nat.mul_assoc.
Qed.
End Blocks.

Definition once_on (b : blk) : nat := if off b then 0%nat else 1%nat.
Definition leading_on (b : blk) : nat := if off b then 0%nat else leading (bmaps b).
Lemma do_block_V : forall n b, (height b <= n)%nat -> do_block n b = Some (V once_on b).
Proof.
  induction n as [|n IH]; intros b Hb; [destruct b; cbn in Hb; lia|]. cbn [do_block]. rewrite V_eq. unfold once_on at 2.
  destruct (off b); auto. rewrite (each_below once_on); [cbn; now rewrite app_nil_r|].
  intros c Hc. apply IH. apply height_blocks in Hc. lia.
Qed.
Lemma hw_maps_seen f i : forall ms, hw_maps f i true ms = Some [].
Proof. induction ms; cbn; auto. Qed.
Lemma hw_maps_eq x i : forall ms, hw_maps (Some x) i false ms = Some (concat (repeat (i :: x) (leading ms))).
Proof.
  induction ms as [|[|] ms IH]; cbn [hw_maps leading repeat concat orb]; auto; [apply hw_maps_seen|]. now rewrite IH.
Qed.
Lemma hw_block_V : forall n b, (height b <= n)%nat -> hw_block n b = Some (V leading_on b).
Proof.
  induction n as [|n IH]; intros b Hb; [destruct b; cbn in Hb; lia|]. cbn [hw_block]. rewrite V_eq. unfold leading_on at 2.
  destruct (off b); auto. rewrite (each_below leading_on); [apply hw_maps_eq|].
  intros c Hc. apply IH. apply height_blocks in Hc. lia.
Qed.
