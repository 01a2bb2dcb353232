(** Properties C21-C29, C33, C74-C77: register fields and registers. *)
From Coq Require Import ZArith List Bool Arith Lia ZifyBool ZifyNat Sorted Permutation.
From Verif Require Import Prelude RegFieldModel RegFieldSpec RegFieldProofs RegModel RegSpec RegProofs RegAtomicModel.
Import ListNotations.
Open Scope Z_scope.

(** C21 *)
Theorem C21_values_fit : forall sz lsb_pos acc vol r hr os,
  0 <= sz -> Forall (fop_ok (configure sz lsb_pos acc vol r hr)) os ->
  let f := frun (configure sz lsb_pos acc vol r hr) os in
  fits_in (if sz =? 0 then 1 else sz) (desired f) /\ fits_in (if sz =? 0 then 1 else sz) (mirrored f).
Proof.
  intros sz l acc vol r hr os Hs HO f.
  destruct (finv_configure sz l acc vol r hr Hs) as [HI HS].
  destruct (finv_run os _ HI HO) as [(H1 & H2 & H3 & H4) H5]. fold f in H1, H2, H3, H4, H5.
  rewrite <- HS, <- H5. auto.
Qed.
Print Assumptions C21_values_fit.

Example C21_example :
  let f := frun (configure 4 3 W1T false 9 true)
    [FReset 0; FSet (-3); FPredict false 255 PWrite FrontOrPredict (Map RtRW) (-1); FSet 1000] in
  (mirrored f, desired f) = (6, 14).
Proof. reflexivity. Qed.

(** C22 *)
Theorem C22_write_prediction : forall busy f w m be ok,
  FInv f -> Z.land 1 be = 1 ->
  exists f', do_predict busy f w PWrite FrontOrPredict m be ok = Some (f', ok) /\
    desired f' = mirrored f' /\ written f' = true /\
    has_bits (size f) (mirrored f')
      (fun i => write_bit (write_effect (get_access f m)) (written f) (Z.testbit (mirrored f) i) (Z.testbit w i)).
Proof.
  intros busy f w m be ok HI Hb. unfold do_predict. rewrite Hb. cbn -[Z.land].
  eexists. split; [reflexivity|]. repeat split; auto; apply (write_prediction f w m HI).
Qed.
Print Assumptions C22_write_prediction.

(** [FInv] holds of every field after any history, see C21. *)
Example C22_example : FInv (frun (configure 4 0 W1C false 13 true) [FReset 0]) /\
  do_predict false (frun (configure 4 0 W1C false 13 true) [FReset 0]) 6 PWrite FrontOrPredict (Map RtRW) (-1) true
  = Some (Field 4 0 W1C false 9 9 true [(0%nat, 13)], true).
Proof.
  split; [|reflexivity]. destruct (finv_configure 4 0 W1C false 13 true); [lia|]. apply finv_run; auto.
  repeat constructor.
Qed.

(** C23 *)
Theorem C23_read_prediction : forall busy f v m be ok,
  FInv f -> Z.land 1 be = 1 ->
  exists f', do_predict busy f v PRead FrontOrPredict m be ok = Some (f', ok) /\
    written f' = written f /\
    has_bits (size f) (mirrored f')
      (fun i => read_bit (read_effect (get_access f m)) (Z.testbit (mirrored f) i) (Z.testbit v i)) /\
    (read_effect (get_access f m) = RUnreadable -> f' = f) /\
    (read_effect (get_access f m) <> RUnreadable -> desired f' = mirrored f').
Proof.
  intros busy f v m be ok HI Hb.
  assert (exists f', do_predict busy f v PRead FrontOrPredict m be ok = Some (f', ok)) as [f' E].
  { unfold do_predict. rewrite Hb. cbn -[Z.land is_in].
    destruct (is_in _ _); [|destruct (is_in _ _); [|destruct (is_in _ _)]]; eauto. }
  exists f'. split; auto. destruct (read_prediction _ _ _ _ _ _ _ _ HI E) as (H1 & H2 & H3 & H4).
  split; auto. split; auto. split; auto. pose proof (finv_predict _ _ _ _ _ _ _ _ _ _ HI E) as (H5 & H6 & _).
  apply do_predict_size in E. destruct E as [E _]. now rewrite <- E.
Qed.
Print Assumptions C23_read_prediction.

Example C23_example :
  option_map (fun x => mirrored (fst x))
    (do_predict false (frun (configure 4 0 WRS false 13 true) [FReset 0]) 6 PRead FrontOrPredict (Map RtRW) (-1) true)
  = Some 15.
Proof. reflexivity. Qed.

(** A prediction whose byte enable excludes the field raises instead of leaving
    the field alone. *)
Theorem C29_field_byte_disabled : forall busy f v k p m be ok,
  Z.land 1 be = 0 -> do_predict busy f v k p m be ok = None.
Proof. intros busy f v k p m be ok H. unfold do_predict. now rewrite H. Qed.
Print Assumptions C29_field_byte_disabled.

(** C24: for every history of sets, resets and predictions of the fields of a
    register, update() brings every field with a data-dependent policy to its
    desired value, and the others if they were set; nothing needs updating
    afterwards. *)
Definition plain_op (o : fop) : Prop := match o with FSetAccess _ | FRandomize _ => False | _ => True end.
Definition with_history (f : field) : Prop :=
  exists sz l acc vol r hr os, 0 <= sz /\ acc <> NOACCESS /\ Forall plain_op os /\ f = frun (configure sz l acc vol r hr) os.

Lemma history_inv f : with_history f -> FInv f /\ reach f /\ access f <> NOACCESS.
Proof.
  intros (sz & l & acc & vol & r & hr & os & Hs & HN & HP & ->).
  destruct (finv_configure sz l acc vol r hr Hs) as [HI HS].
  assert (HA : access (configure sz l acc vol r hr) = acc) by (unfold configure; now destruct hr).
  destruct (reach_run os (configure sz l acc vol r hr)) as [H1 H2]; rewrite ?HA; auto.
  - unfold configure. destruct hr; unfold reach; cbn; destruct (write_effect acc); auto.
  - split; [|split; auto; congruence]. apply finv_run; auto.
    eapply Forall_impl; [|exact HP]. intros []; cbn; tauto.
Qed.

Theorem C24_set_update : forall r,
  0 <= n_bits r -> layout (n_bits r) (fields r) -> Forall with_history (fields r) ->
  reg_needs_update r = true ->
  exists bv r', reg_update r (Map RtRW) = (Some bv, r') /\
    Forall2 (fun f f' => desired f' = mirrored f' /\
      (data_dependent (access f) \/ desired f <> mirrored f -> mirrored f' = desired f) /\
      (write_effect (access f) = ClearAll -> mirrored f' = 0) /\
      (write_effect (access f) = SetAll -> mirrored f' = 2 ^ size f - 1)) (fields r) (fields r') /\
    (Forall (fun f => volatile f = false) (fields r') -> reg_needs_update r' = false).
Proof.
  intros r Hn HL HH HU. destruct (update_ok r Hn HL) as (bv & r' & E & H2); auto.
  { eapply Forall_impl; [|exact HH]. exact history_inv. }
  exists bv, r'. split; auto. split.
  - clear - H2. induction H2 as [|f f' fs fs' (H3 & H4 & H5) H2 IH]; constructor; auto. repeat split; auto.
    + intros HE. rewrite H5, HE; auto. unfold data_dependent. rewrite HE. tauto.
    + intros HE. rewrite H5, HE; auto; [|unfold data_dependent; rewrite HE; tauto]. now rewrite Z.ones_equiv, <- Z.sub_1_r.
  - intros HV. unfold reg_needs_update. apply not_true_iff_false. intros HE. apply existsb_exists in HE.
    destruct HE as (f' & Hf & HN). rewrite Forall_forall in HV. specialize (HV f' Hf).
    assert (HM : desired f' = mirrored f').
    { clear - H2 Hf. induction H2 as [|f g fs fs' (H3 & H4 & H5) H2 IH]; destruct Hf; subst; auto. }
    unfold needs_update in HN. rewrite HV, HM, Z.eqb_refl in HN. discriminate.
Qed.
Print Assumptions C24_set_update.

(** When nothing needs updating, nothing is written and every field already has
    its desired value. *)
Theorem C24_no_update : forall r, reg_needs_update r = false ->
  reg_update r (Map RtRW) = (None, r) /\ Forall (fun f => desired f = mirrored f) (fields r).
Proof.
  intros r H. unfold reg_update. rewrite H. split; auto. rewrite Forall_forall. intros f Hf.
  unfold reg_needs_update in H. apply not_true_iff_false in H.
  destruct (Z.eq_dec (mirrored f) (desired f)); auto. exfalso. apply H. apply existsb_exists. exists f. split; auto.
  unfold needs_update. apply Z.eqb_neq in n. now rewrite n.
Qed.
Print Assumptions C24_no_update.

Example C24_example :
  let r := Reg 16 12 false false
     [frun (configure 4 0 W1T false 5 true) [FReset 0; FSet 3]; frun (configure 8 8 W0S false 1 true) [FReset 0; FSet 253]] in
  reg_update r (Map RtRW) =
  (Some 64515, with_fields r [frun (configure 4 0 W1T false 5 true) [FReset 0; FPredict false 3 PWrite FrontOrPredict (Map RtRW) 1];
                       frun (configure 8 8 W0S false 1 true) [FReset 0; FPredict false 252 PWrite FrontOrPredict (Map RtRW) 1]])
  /\ map mirrored (fields (snd (reg_update r (Map RtRW)))) = [6; 3].
Proof. split; reflexivity. Qed.

(** C81: set() applies the field's policy to the desired value, bit by bit. *)
Lemma clip_land v n : 0 <= n -> (if Z.shiftr v n =? 0 then v else Z.land v (Z.ones n)) = Z.land v (Z.ones n).
Proof.
  intros Hn. destruct (Z.eqb_spec (Z.shiftr v n) 0) as [E|]; auto.
  rewrite Z.land_ones by lia. rewrite Z.shiftr_div_pow2 in E by lia.
  assert (0 < 2 ^ n) by (apply Z.pow_pos_nonneg; lia).
  symmetry. apply Z.mod_small. apply Z.div_small_iff in E; lia.
Qed.
Theorem C81_set_policy : forall f v, FInv f -> access f <> NOACCESS ->
  mirrored (f_set f v) = mirrored f /\
  has_bits (size f) (desired (f_set f v))
    (fun i => write_bit (write_effect (access f)) (written f) (Z.testbit (desired f) i) (Z.testbit v i)).
Proof.
  intros f v HI HN. split; [reflexivity|]. split.
  - apply (finv_step f (FSet v) HI I).
  - intros i Hi. destruct HI as (Hs & _). cbn [f_set with_desired desired]. unfold set_value.
    rewrite !mask_ones, clip_land by lia.
    destruct (access f); cbn [write_effect write_bit]; try congruence; try destruct (written f);
      repeat first [rewrite Z.land_spec | rewrite Z.lor_spec | rewrite Z.lxor_spec | rewrite Z.lnot_spec by lia
        | rewrite ones_bit by lia | rewrite Z.bits_0 | rewrite andb_true_r];
      auto;
      destruct (Z.testbit (desired f) i), (Z.testbit v i); reflexivity.
Qed.
Print Assumptions C81_set_policy.

Example C81_example : desired (f_set (frun (configure 4 0 W1C false 13 true) [FReset 0]) 6) = 9.
Proof. reflexivity. Qed.

(** A field without access accepts set() all the same. *)
Theorem C81_noaccess_set : forall f v, FInv f -> access f = NOACCESS ->
  mirrored (f_set f v) = mirrored f /\ desired (f_set f v) = v mod 2 ^ size f.
Proof.
  intros f v (Hs & _) HA. split; [reflexivity|]. cbn. unfold set_value. rewrite HA, mask_ones. rewrite set_clip by auto. apply Z.land_ones. lia.
Qed.
Print Assumptions C81_noaccess_set.
Theorem C81_noaccess_limit : exists f, FInv f /\ access f = NOACCESS /\ desired (f_set f 3) <> desired f.
Proof.
  exists (frun (configure 4 0 NOACCESS false 0 true) [FReset 0]). split.
  - destruct (finv_configure 4 0 NOACCESS false 0 true); [lia|]. apply finv_run; auto. repeat constructor.
  - split; [reflexivity|]. cbn. discriminate.
Qed.
Print Assumptions C81_noaccess_limit.

(** C25: write-once. After a predicted write, a later write or set() changes
    nothing until a HARD reset, whatever other writes, sets and soft resets come
    in between. *)
Theorem C25_write_once : forall f v m busy os o,
  FInv f -> access f = W1 \/ access f = WO1 ->
  (forall o', In o' os -> wo_op o') -> wo_op o -> (match o with FReset _ => False | _ => True end) ->
  let f1 := frun (fstep f (FPredict busy v PWrite FrontOrPredict (Map m) (-1))) os in
  mirrored (fstep f1 o) = mirrored f1 /\ desired (fstep f1 o) = desired f1 /\ desired f1 = mirrored f1.
Proof.
  intros f v m busy os o HI HA HW Ho Hno f1.
  assert (HX : forall os f, (access f = W1 \/ access f = WO1) /\ FInv f /\ written f = true /\ desired f = mirrored f ->
    (forall o', In o' os -> wo_op o') ->
    (access (frun f os) = W1 \/ access (frun f os) = WO1) /\ FInv (frun f os) /\ written (frun f os) = true /\
    desired (frun f os) = mirrored (frun f os)).
  { clear. induction os as [|o os IH]; intros f H HW; auto. cbn [frun fold_left]. apply IH; [|intros; apply HW; now right].
    destruct H as (HA & HI & HF & HD). pose proof (HW o (or_introl eq_refl)) as Ho.
    assert (HI' : FInv (fstep f o)) by (apply finv_step; auto; destruct o; cbn in *; auto; easy).
    destruct o as [x|k|x k|b x k p m be| |]; cbn [wo_op] in Ho; try easy.
    - destruct (write_once_step f (FSet x) HA HI HF HD) as (H1 & H2 & H3); auto.
      split; [exact HA|split; [exact HI'|split; [exact H3|congruence]]].
    - cbn [fstep] in *. unfold f_reset in *. destruct (assoc k (resets f)); auto.
      destruct k; [easy|]. cbn in *. auto.
    - destruct (write_once_step f (FPredict b x k p m be) HA HI HF HD) as (H1 & H2 & H3); auto.
      split; [|split; [exact HI'|split; [auto|congruence]]]. cbn [fstep].
      destruct (do_predict b f x k p m be true) as [[f' ok]|] eqn:E; auto. apply do_predict_size in E.
      destruct E as (_ & _ & E & _). now rewrite E. }
  destruct (HX os (fstep f (FPredict busy v PWrite FrontOrPredict (Map m) (-1)))) as (A & B & C & D); auto.
  { split; [exact HA|]. split; [apply finv_step; auto; exact I|]. split; reflexivity. }
  fold f1 in A, B, C, D. destruct (write_once_step f1 o A B C D Ho Hno) as (H1 & H2 & _). auto.
Qed.
Print Assumptions C25_write_once.

Example C25_example :
  let f := frun (configure 8 0 W1 false 0 true)
    [FReset 0; FPredict false 77 PWrite FrontOrPredict (Map RtRW) (-1); FSet 3;
     FPredict false 5 PWrite FrontOrPredict (Map RtRW) (-1)] in
  (mirrored f, desired f) = (77, 77) /\
  mirrored (frun f [FReset 0; FPredict false 5 PWrite FrontOrPredict (Map RtRW) (-1)]) = 5.
Proof. split; reflexivity. Qed.

(** C26: write-only rights make every field inaccessible, even a plain
    read-write one, so that writes through such a map are not predicted. *)
Theorem C26_write_only : forall f, get_access f (Map RtWO) = NOACCESS.
Proof. reflexivity. Qed.
Print Assumptions C26_write_only.

(** So neither writes nor reads through such a map change the mirror. *)
Theorem C26_write_only_inert : forall busy f v k be ok f' ok', FInv f -> k <> PDirect ->
  do_predict busy f v k FrontOrPredict (Map RtWO) be ok = Some (f', ok') -> mirrored f' = mirrored f.
Proof.
  intros busy f v k be ok f' ok' (Hs & Hm & _ & _) HK H. unfold do_predict in H.
  destruct (Z.land 1 be =? 0); [discriminate|]. destruct k; [congruence| |].
  - injection H as <- <-. unfold XpredictX. rewrite C26_write_only. cbn -[Z.land]. rewrite mask_ones. cbn. apply land_mask_id; auto. lia.
  - rewrite C26_write_only in H. cbn in H. now injection H as <- <-.
Qed.
Print Assumptions C26_write_only_inert.

(** A predicted write counts as the first one whatever the map's rights. *)
Theorem C26_write_once_used : forall busy f v p m be ok f' ok',
  do_predict busy f v PWrite p m be ok = Some (f', ok') -> written f' = true.
Proof.
  intros busy f v p m be ok f' ok' H. unfold do_predict in H. destruct (Z.land 1 be =? 0); [discriminate|]. now injection H as <- <-.
Qed.
Print Assumptions C26_write_once_used.

(** A write through a read-only map uses up a write-once field. *)
Theorem C26_read_only_write_once_limit :
  let f := frun (configure 8 0 W1 false 0 true)
    [FReset 0; FPredict false 77 PWrite FrontOrPredict (Map RtRO) (-1);
     FPredict false 5 PWrite FrontOrPredict (Map RtRW) (-1)] in
  mirrored f = 0.
Proof. reflexivity. Qed.
Print Assumptions C26_read_only_write_once_limit.

(** The mirrored value of a field with a predefined policy is never changed by a
    write through a read-only map, and full rights give the field's policy. *)
Theorem C26_read_only : forall busy f v be ok f' ok',
  FInv f -> (forall n, access f <> USER n) ->
  do_predict busy f v PWrite FrontOrPredict (Map RtRO) be ok = Some (f', ok') ->
  mirrored f' = mirrored f.
Proof.
  intros busy f v be ok f' ok' (Hs & Hm & _ & _) HU H. unfold do_predict in H.
  destruct (Z.land 1 be =? 0); [discriminate|]. injection H as <- <-. cbn -[Z.land].
  assert (HX : XpredictX f (mirrored f) (Z.land v (get_mask f)) (Map RtRO) = mirrored f).
  { unfold XpredictX, get_access. destruct (access f) eqn:E; cbn; auto. now destruct (HU n). }
  rewrite HX. rewrite mask_ones. cbn. apply land_mask_id; auto. lia.
Qed.
Print Assumptions C26_read_only.

(** Reads through a read-only map keep their side effects. *)
Theorem C26_read_only_reads : forall f, (forall n, access f <> USER n) ->
  ~ In (access f) [WO; WOC; WOS; WO1; NOACCESS] ->
  read_effect (get_access f (Map RtRO)) = read_effect (access f) /\
  get_access f (Map RtRW) = access f.
Proof.
  intros f HU HN. split; auto. unfold get_access. destruct (access f) eqn:E; cbn in *; auto; tauto.
Qed.
Print Assumptions C26_read_only_reads.

(** C27 *)
Theorem C27_sorted : forall n fs, let r := fst (add_fields (new_reg n) fs) in
  Permutation (fields r) fs /\ in_order (fields r).
Proof.
  intros n fs r. destruct (add_fields_inv fs (new_reg n) []) as (H1 & H2 & H3 & _); auto.
  repeat split; auto; constructor.
Qed.
Print Assumptions C27_sorted.

Theorem C27_disjoint : forall n fs r, 0 <= n -> Forall (fun f => 0 < size f) fs ->
  add_fields (new_reg n) fs = (r, []) ->
  pairwise_disjoint (fields r) /\ fold_right (fun f a => size f + a) 0 fs <= (if n =? 0 then 1 else n).
Proof.
  intros n fs r Hn HF HA. destruct (add_fields_chain fs (new_reg n) r) as [H1 H2]; auto; cbn; try (constructor; fail).
  - destruct (n =? 0) eqn:E; lia.
  - split; [now apply chain_disjoint|].
    destruct (add_fields_inv fs (new_reg n) []) as (_ & _ & _ & H4); [repeat split; constructor|].
    rewrite HA in H4. cbn [fst app] in H4. rewrite <- H4.
    assert (HB : n_bits r = if n =? 0 then 1 else n).
    { assert (HX : forall fs r, n_bits (fst (add_fields r fs)) = n_bits r).
      { clear. induction fs as [|f fs IH]; intros r; cbn [add_fields]; auto.
        specialize (IH (fst (add_field r f))). assert (n_bits (fst (add_field r f)) = n_bits r).
        { unfold add_field. destruct (locked r); auto. destruct (insert_loop f 0 (fields r)) as [[]|]; auto. }
        destruct (add_field r f) as [r1 e1]. cbn [fst] in *. destruct (add_fields r1 fs). cbn [fst] in *. congruence. }
      specialize (HX fs (new_reg n)). now rewrite HA in HX. }
    rewrite <- HB. exact H2.
Qed.
Print Assumptions C27_disjoint.

(** Overlap is always reported. *)
Theorem C27_overlap_reported : forall n fs, Forall (fun f => 0 < size f) fs -> 0 <= n ->
  ~ pairwise_disjoint (fields (fst (add_fields (new_reg n) fs))) -> snd (add_fields (new_reg n) fs) <> [].
Proof.
  intros n fs HF Hn HD HE. destruct (add_fields (new_reg n) fs) as [r e] eqn:E. cbn in *. subst e.
  apply HD. eapply C27_disjoint; eauto.
Qed.
Print Assumptions C27_overlap_reported.

(** A field outside the register is accepted silently. *)
Theorem C27_outside_limit :
  let f := configure 4 100 RW false 0 true in
  add_fields (new_reg 8) [f] = (Reg 8 4 false false [f], []).
Proof. reflexivity. Qed.
Print Assumptions C27_outside_limit.

Example C27_example :
  map lsb (fields (fst (add_fields (new_reg 32)
     [configure 4 8 RW false 0 true; configure 8 0 RO false 0 true; configure 4 12 RW false 0 true]))) = [0; 8; 12]
  /\ snd (add_fields (new_reg 32) [configure 4 8 RW false 0 true; configure 9 0 RO false 0 true]) = [EOverlap].
Proof. split; reflexivity. Qed.

(** C28 *)
Theorem C28_get_composition : forall r, layout (n_bits r) (fields r) -> Forall FInv (fields r) ->
  composed_of (reg_get r) desired (fields r) /\ composed_of (reg_get_mirrored r) mirrored (fields r).
Proof.
  intros r [HL HD] HF. split; apply compose_ok; auto; rewrite Forall_forall in *; intros f Hf;
    destruct (HL f Hf) as (H1 & H2 & H3); destruct (HF f Hf) as (H4 & H5 & H6 & _); auto.
Qed.
Print Assumptions C28_get_composition.

Theorem C28_get_after_set : forall r v i, layout (n_bits r) (fields r) -> Forall FInv (fields r) ->
  Forall (fun f => access f = RW) (fields r) -> 0 <= i ->
  (forall f, In f (fields r) -> covers f i -> Z.testbit (reg_get (reg_set r v)) i = Z.testbit v i) /\
  ((forall f, In f (fields r) -> ~ covers f i) -> Z.testbit (reg_get (reg_set r v)) i = false).
Proof.
  intros r v i [HL HD] HF HA Hi.
  assert (HC : composed_of (reg_get (reg_set r v)) desired (fields (reg_set r v))).
  { apply C28_get_composition.
    - cbn. split.
      + apply Forall_map. eapply Forall_impl; [|exact HL]. auto.
      + clear - HD. unfold pairwise_disjoint in *. induction HD as [|f fs H1 H2 IH]; cbn; constructor; auto.
        apply Forall_map. eapply Forall_impl; [|exact H1]. auto.
    - cbn. apply Forall_map. eapply Forall_impl; [|exact HF]. intros f. apply finv_set. }
  destruct HC as (_ & H1 & H2). rewrite Forall_forall in *. split.
  - intros f Hf Hc. rewrite (H1 (f_set f (slice v f)) i); auto.
    + cbn. destruct (HL f Hf) as (Hs & Hl & _). rewrite set_value_RW; auto.
      * rewrite slice_bit by (unfold covers in Hc; lia). f_equal. lia.
      * apply slice_fits. lia.
    + cbn. apply in_map_iff. eauto.
  - intros Hn. apply H2; auto. cbn. intros f Hf. apply in_map_iff in Hf. destruct Hf as (g & <- & Hg).
    exact (Hn g Hg).
Qed.
Print Assumptions C28_get_after_set.

Example C28_example :
  let r := fst (add_fields (new_reg 16) [configure 4 8 RW false 0 true; configure 4 0 RW false 0 true]) in
  reg_get (reg_set r 0xFABC) = 0xA0C.
Proof. reflexivity. Qed.

(** C29: a byte enable that excludes the byte of a field raises, leaving earlier
    fields updated. *)
Theorem C29_byte_enable : forall r v k p m be, (forall f, In f (fields r) -> 0 <= lsb f) -> busy r && is_direct k = false ->
  (snd (reg_predict r v k p m be) = PRaised <-> exists f, In f (fields r) /\ Z.testbit be (lsb f / 8) = false) /\
  (snd (reg_predict r v k p m be) <> PRaised -> reg_predict r v k p m be = reg_predict r v k p m (-1)).
Proof.
  intros r v k p m be HL HB. unfold reg_predict. rewrite HB. generalize (busy r). intros b. generalize true as ok. 
  enough (HG : forall fs, (forall f, In f fs -> 0 <= lsb f) -> forall ok,
    (snd (predict_fields b fs v k p m be ok) = PRaised <-> exists f, In f fs /\ Z.testbit be (lsb f / 8) = false) /\
    (snd (predict_fields b fs v k p m be ok) <> PRaised -> predict_fields b fs v k p m be ok = predict_fields b fs v k p m (-1) ok)).
  { intros ok. specialize (HG (fields r) HL ok). destruct (predict_fields b (fields r) v k p m be ok) as [fs1 x1], (predict_fields b (fields r) v k p m (-1) ok) as [fs2 x2].
    cbn [snd] in *. destruct HG as [H1 H2]. split; [exact H1|]. intros HN. specialize (H2 HN). now injection H2 as -> ->. }
  clear HL HB. induction fs as [|f fs IH]; intros HL ok.
  - cbn. split; [split; [discriminate|intros (f & [] & _)]|reflexivity].
  - assert (Hf : 0 <= lsb f) by (apply HL; now left). specialize (IH (fun g Hg => HL g (or_intror Hg))).
    assert (HE : Z.land 1 (Z.shiftr be (Z.quot (lsb f) 8)) = if Z.testbit be (lsb f / 8) then 1 else 0).
    { rewrite Z.quot_div_nonneg by lia. assert (0 <= lsb f / 8) by (apply Z.div_pos; lia). apply Z.bits_inj'. intros i Hi. rewrite Z.land_spec, Z.shiftr_spec by lia.
      destruct (Z.eq_dec i 0) as [->|Hn]; [rewrite Z.add_0_l; now destruct (Z.testbit be (lsb f / 8))|].
      replace (Z.testbit 1 i) with false; [destruct (Z.testbit be (lsb f / 8)); [|now rewrite Z.bits_0]; symmetry|symmetry]; destruct i as [|i|i]; try lia; reflexivity. }
    assert (HN1 : Z.land 1 (Z.shiftr (-1) (Z.quot (lsb f) 8)) = 1).
    { rewrite Z.quot_div_nonneg by lia. assert (0 <= lsb f / 8) by (apply Z.div_pos; lia). apply Z.bits_inj'. intros i Hi. rewrite Z.land_spec, Z.shiftr_spec, Z.bits_m1 by lia. apply andb_true_r. }
    cbn [predict_fields]. destruct (Z.testbit be (lsb f / 8)) eqn:Et.
    + assert (HD : do_predict b f (slice v f) k p m (Z.shiftr be (Z.quot (lsb f) 8)) ok = do_predict b f (slice v f) k p m (Z.shiftr (-1) (Z.quot (lsb f) 8)) ok).
      { unfold do_predict. now rewrite HE, HN1. }
      rewrite <- HD. destruct (do_predict b f (slice v f) k p m (Z.shiftr be (Z.quot (lsb f) 8)) ok) as [[f' ok']|] eqn:Ed.
      * destruct (IH ok') as [I1 I2]. destruct (predict_fields b fs v k p m be ok') as [fs1 x1], (predict_fields b fs v k p m (-1) ok') as [fs2 x2]. cbn [snd] in *. split.
        -- rewrite I1. split; [intros (g & Hg & HT); exists g; split; [now right|exact HT]|intros (g & [<-|Hg] & HT); [congruence|exists g; auto]].
        -- intros HN. specialize (I2 HN). now injection I2 as -> ->.
      * exfalso. unfold do_predict in Ed. rewrite HE in Ed. cbn [Z.eqb] in Ed. destruct k, p; try discriminate. repeat (destruct (is_in _ _) in Ed; try discriminate).
    + assert (HD : do_predict b f (slice v f) k p m (Z.shiftr be (Z.quot (lsb f) 8)) ok = None) by (unfold do_predict; now rewrite HE).
      rewrite HD. cbn [snd]. split; [|congruence]. split; [intros _; exists f; split; [now left|exact Et]|reflexivity].
Qed.
Print Assumptions C29_byte_enable.
(** predict() while an operation is in progress is refused. *)
Theorem C29_busy : forall r v p m be, busy r = true -> reg_predict r v PDirect p m be = (r, POk false).
Proof. intros r v p m be H. unfold reg_predict. now rewrite H. Qed.
Print Assumptions C29_busy.
Theorem C29_byte_enable_limit :
  let r := fst (add_fields (new_reg 16) [configure 8 0 RW false 0 true; configure 8 8 RW false 0 true]) in
  let (r', x) := reg_predict r 0x1234 PWrite FrontOrPredict (Map RtRW) 1 in
  x = PRaised /\ reg_get_mirrored r' = 0x34.
Proof. split; reflexivity. Qed.
Print Assumptions C29_byte_enable_limit.

(** With all bytes enabled: every bit of the register after a predicted write. *)
Theorem C29_write : forall r v m, layout (n_bits r) (fields r) -> Forall FInv (fields r) ->
  exists r' ok, reg_predict r v PWrite FrontOrPredict m (-1) = (r', POk ok) /\ length (fields r') = length (fields r) /\
    (forall k f f', nth_error (fields r) k = Some f -> nth_error (fields r') k = Some f' -> forall i, covers f i ->
       Z.testbit (reg_get_mirrored r') i =
       write_bit (write_effect (get_access f m)) (written f) (Z.testbit (reg_get_mirrored r) i) (Z.testbit v i)) /\
    (forall i, 0 <= i -> (forall f, In f (fields r) -> ~ covers f i) -> Z.testbit (reg_get_mirrored r') i = false).
Proof.
  intros r v m [HL HD] HF.
  assert (HFL : Forall (fun f => FInv f /\ 0 <= lsb f) (fields r)).
  { rewrite Forall_forall in *. intros f Hf. split; auto. destruct (HL f Hf); tauto. }
  destruct (reg_wrote r v m HFL) as (r' & ok & E & H2). exists r', ok. split; auto.
  split; [clear - H2; induction H2; cbn; congruence|].
  assert (HG : Forall2 (fun f f' => wrote v m f f' /\ FInv f') (fields r) (fields r')).
  { clear - H2 HF. induction H2 as [|f f' fs fs' HW H2 IH]; constructor; inversion HF as [|? ? HI HF']; subst; auto.
    split; auto. destruct HW as (W1 & W2 & W3 & W4 & W4' & W5 & W6 & W7 & W8). destruct HI as (I1 & I2 & I3 & I4).
    unfold FInv. rewrite W1, W4', W6. auto. }
  assert (HC : composed_of (reg_get_mirrored r) mirrored (fields r)) by (now apply C28_get_composition).
  assert (HC' : composed_of (reg_get_mirrored r') mirrored (fields r')).
  { apply compose_ok.
    - clear - HG HD. unfold pairwise_disjoint in *. induction HG as [|f f' fs fs' [HW _] HG IH]; constructor.
      + inversion HD as [|? ? H1 H2]; subst. rewrite Forall_forall in *. intros g' Hg'.
        assert (exists g, In g fs /\ lsb g' = lsb g /\ size g' = size g) as (g & Hg & E1 & E2).
        { clear - HG Hg'. induction HG as [|x y xs ys [HW _] HG IH]; [easy|]. destruct Hg' as [<-|H].
          - exists x. destruct HW as (? & ? & _). split; [now left|auto].
          - destruct (IH H) as (g & ? & ?). exists g. split; [now right|auto]. }
        specialize (H1 g Hg). intros i [C1 C2]. apply (H1 i). destruct HW as (E3 & E4 & _). unfold covers in *.
        rewrite E3, E4 in C1. rewrite E1, E2 in C2. auto.
      + apply IH. now inversion HD.
    - clear - HG HL. induction HG as [|f f' fs fs' [HW HI] HG IH]; constructor; inversion HL as [|? ? H1 H2]; subst; auto.
      destruct HW as (E3 & E4 & _). destruct HI as (? & ? & _). rewrite E4. tauto. }
  destruct HC as (_ & C1 & C2). destruct HC' as (_ & D1 & D2). split.
  - intros k f f' Hk Hk' i Hc.
    assert (HW : wrote v m f f' ).
    { clear - H2 Hk Hk'. revert k Hk Hk'. induction H2 as [|x y xs ys HW H2 IH]; intros k Hk Hk'; destruct k; cbn in *; try discriminate.
      - now injection Hk as <-; injection Hk' as <-.
      - eauto. }
    destruct HW as (W1 & W2 & W3 & W4 & W4' & W5 & W6 & W7 & W8).
    rewrite (D1 f' i) by (eauto using nth_error_In; unfold covers in *; lia).
    rewrite (C1 f i) by (eauto using nth_error_In). rewrite W2. unfold covers in Hc. rewrite W8 by lia.
    do 2 f_equal. lia.
  - intros i Hi Hn. apply D2; auto. intros f' Hf' Hc.
    assert (exists g, In g (fields r) /\ lsb f' = lsb g /\ size f' = size g) as (g & Hg & E1 & E2).
    { clear - HG Hf'. induction HG as [|x y xs ys [HW _] HG IH]; [easy|]. destruct Hf' as [<-|H].
      - exists x. destruct HW as (? & ? & _). split; [now left|auto].
      - destruct (IH H) as (g & ? & ?). exists g. split; [now right|auto]. }
    apply (Hn g Hg). unfold covers in *. lia.
Qed.
Print Assumptions C29_write.

(** Predicted read, field by field. *)
Theorem C29_read : forall r v m, Forall (fun f => FInv f /\ 0 <= lsb f) (fields r) ->
  exists r' ok, reg_predict r v PRead FrontOrPredict m (-1) = (r', POk ok) /\
    Forall2 (fun f f' => size f' = size f /\ lsb f' = lsb f /\ access f' = access f /\ written f' = written f /\
      has_bits (size f) (mirrored f') (fun i => read_bit (read_effect (get_access f m))
        (Z.testbit (mirrored f) i) (Z.testbit v (i + lsb f)))) (fields r) (fields r').
Proof. exact reg_readback. Qed.
Print Assumptions C29_read.

Example C29_example :
  let r := fst (add_fields (new_reg 16) [configure 8 0 RW false 0 true; configure 4 8 W1S false 0 true]) in
  let r1 := fst (reg_predict r 0xF234 PWrite FrontOrPredict (Map RtRW) (-1)) in
  let r2 := fst (reg_predict r1 0xF111 PWrite FrontOrPredict (Map RtRW) (-1)) in
  layout 16 (fields r) /\ reg_get_mirrored r1 = 0x234 /\ reg_get_mirrored r2 = 0x311.
Proof.
  split; [|split; reflexivity]. split; [repeat constructor; cbn; lia|].
  repeat constructor. intros i [H1 H2]. unfold covers in *. cbn in *. lia.
Qed.

(** C74: what reg.write sends to the bus, and its effect. *)
Theorem C74_write : forall r v m, 0 <= n_bits r -> Forall (fun f => FInv f /\ 0 <= lsb f) (fields r) ->
  exists r', reg_write r v m = (Z.land v (Z.ones (n_bits r)), r') /\
    Forall2 (fun f f' => desired f' = mirrored f' /\ has_bits (size f) (mirrored f')
      (fun i => write_bit (write_effect (get_access f m)) (written f) (Z.testbit (mirrored f) i)
         (Z.testbit v (i + lsb f) && (i + lsb f <? n_bits r)))) (fields r) (fields r').
Proof.
  intros r v m Hn HF. destruct (reg_write_ok r v m Hn HF) as (r' & E & H2). exists r'. split; auto.
  cbn [fields reg_set with_fields] in H2. revert H2 HF. generalize (fields r') as fs'. generalize (fields r) as fs.
  induction fs as [|f fs IH]; intros fs' H2 HF; inversion H2 as [|? f' ? fs2 HW H2']; subst; constructor.
  - destruct HW as (W1 & W2 & W3 & W4 & W4' & W5 & W6 & W7). split; auto.
    inversion HF as [|? ? [_ Hl] _]; subst. eapply has_bits_ext; [exact W7|]. intros i Hi. cbn.
    f_equal; auto. rewrite Z.land_spec, Z.testbit_ones by auto. f_equal. lia.
  - apply IH; auto. now inversion HF.
Qed.
Print Assumptions C74_write.

Example C74_example : fst (reg_write (Reg 8 8 false false [configure 8 0 RW false 0 true]) 0x1FF (Map RtRW)) = 0xFF.
Proof. reflexivity. Qed.

(** C75: the check of mirror(). Write-only fields are compared although they
    cannot be read ... *)
Theorem C75_write_only_compared_limit :
  do_check [(configure 8 0 WO false 0 true, false)] 5 0 (Map RtRW) = false.
Proof. reflexivity. Qed.
Print Assumptions C75_write_only_compared_limit.

(** ... the check passes iff the values agree on every bit outside the fields
    excluded from comparison (including bits of no field). *)
Theorem C75_check : forall fs expected actual m,
  Forall (fun x : field * bool => 0 < size (fst x) /\ 0 <= lsb (fst x)) fs ->
  do_check fs expected actual m = true <->
  forall i, 0 <= i -> (forall f, In (f, true) fs -> ~ covers f i) -> Z.testbit actual i = Z.testbit expected i.
Proof. exact do_check_ok. Qed.
Print Assumptions C75_check.

Example C75_example :
  do_check [(configure 4 0 RW false 0 true, false); (configure 4 4 RW true 0 true, true)] 0x25 0x75 (Map RtRW) = true /\
  do_check [(configure 4 0 RW false 0 true, false); (configure 4 4 RW true 0 true, true)] 0x25 0x76 (Map RtRW) = false.
Proof. split; reflexivity. Qed.

(** C76: reset values. *)
Theorem C76_reset : forall r kind v, layout (n_bits r) (fields r) ->
  let r' := reg_reset (reg_set_reset r v kind) kind in
  Forall2 (fun f f' => f_get_reset f' kind = mirrored f' /\ has_bits (size f) (mirrored f') (fun i => Z.testbit v (i + lsb f)) /\ desired f' = mirrored f' /\
    (kind = 0%nat -> written f' = false)) (fields r) (fields r') /\ busy r' = false.
Proof.
  intros r kind v [HL HD] r'. split; auto.
  - unfold r'. cbn. rewrite map_map. revert HL. generalize (fields r). clear.
    induction l as [|f fs IH]; intros HL; cbn [map]; constructor; [|apply IH; now inversion HL].
    inversion HL as [|? ? (Hs & Hl & _) _]; subst. unfold f_reset, f_set_reset. cbn [resets with_resets assoc].
    rewrite Nat.eqb_refl. assert (HB : has_bits (size f) (Z.land (Z.shiftr v (lsb f)) (Z.shiftl 1 (size f) - 1))
        (fun i => Z.testbit v (i + lsb f))).
    { split; [apply (slice_fits v f); lia|]. intros i Hi. now apply slice_bit. }
    assert (HG : f_get_reset (f_reset (f_set_reset f (Z.shiftr v (lsb f)) kind) kind) kind =
       Z.land (Z.shiftr v (lsb f)) (Z.shiftl 1 (size f) - 1)).
    { unfold f_get_reset, f_reset, f_set_reset. cbn [resets with_resets assoc]. rewrite Nat.eqb_refl.
      destruct kind; cbn -[Z.land Z.shiftl]; auto. now rewrite Nat.eqb_refl. }
    unfold f_reset, f_set_reset in HG. cbn [resets with_resets assoc] in HG. rewrite Nat.eqb_refl in HG.
    destruct kind; cbn -[Z.land Z.shiftl f_get_reset] in *; rewrite HG; repeat split; auto; try apply HB; discriminate.
Qed.
Print Assumptions C76_reset.

(** A reset of a kind without reset value leaves the register alone. *)
Theorem C76_unknown_kind : forall r kind, Forall (fun f => assoc kind (resets f) = None) (fields r) ->
  fields (reg_reset r kind) = fields r.
Proof.
  intros r kind H. cbn. induction H as [|f fs H1 H2 IH]; cbn; auto. unfold f_reset at 1. now rewrite H1, IH.
Qed.
Print Assumptions C76_unknown_kind.

Example C76_example :
  let r := fst (add_fields (new_reg 16) [configure 8 0 RW false 0x11 true; configure 4 8 W1 false 2 true]) in
  reg_get (reg_reset r 0) = 0x211 /\ reg_get (reg_reset (reg_set_reset r 0xFFF 1) 1) = 0xFFF /\
  reg_get (reg_reset r 5) = 0.
Proof. repeat split; reflexivity. Qed.

(** C77: register-level access summary. *)
Theorem C77_access_summary : forall fs m, 
  (fields_access fs m false false = ARO <->
     fs <> [] /\ Forall (fun f => In (get_access f m) [RO; RC; RS]) fs) /\
  (fields_access fs m false false = AWO <->
     fs <> [] /\ Forall (fun f => In (get_access f m) [WO; WOC; WOS; WO1]) fs).
Proof.
  intros fs m.
  assert (HB : forall l, forallb (fun f => is_in (get_access f m) l) fs = true <-> Forall (fun f => In (get_access f m) l) fs).
  { intros l. rewrite forallb_forall, Forall_forall. setoid_rewrite is_in_In. tauto. }
  rewrite <- !HB. clear HB. destruct fs as [|f fs]; [cbn; intuition discriminate|].
  cbn [fields_access forallb].
  assert (HX : is_in (get_access f m) [RO; RC; RS] = true -> is_in (get_access f m) [WO; WOC; WOS; WO1] = false).
  { destruct (get_access f m); auto. }
  destruct (is_in (get_access f m) [RO; RC; RS]).
  - rewrite HX by auto. rewrite fields_access_ro. cbn [negb andb].
    destruct (forallb _ fs); split; split; intuition discriminate.
  - destruct (is_in (get_access f m) [WO; WOC; WOS; WO1]).
    + rewrite fields_access_wo. cbn [andb]. destruct (forallb _ fs); split; split; intuition discriminate.
    + cbn [andb]. split; split; intuition discriminate.
Qed.
Print Assumptions C77_access_summary.

Example C77_example : fields_access [configure 1 0 RC false 0 true; configure 1 1 RO false 0 true] (Map RtRW) false false = ARO
  /\ fields_access [configure 1 0 RC false 0 true; configure 1 1 RW false 0 true] (Map RtRW) false false = ARW.
Proof. split; reflexivity. Qed.

(** C33. A register reset during an operation lets another process in. *)
Theorem C33_reset_limit :
  inside (snd (arun [AEnter 0 0; AReset; AEnter 1 1])) = [1%nat; 0%nat].
Proof. reflexivity. Qed.
Print Assumptions C33_reset_limit.

(** A release by a process which has already left lets a third process in with the
    second. *)
Theorem C33_late_release_limit :
  inside (snd (arun [AEnter 0 0; AEnter 1 1; ALeave 0; AResume 1; ALeave 0; AEnter 2 2])) = [2%nat; 1%nat].
Proof. reflexivity. Qed.
Print Assumptions C33_late_release_limit.

Record AInv (s : alock) (tr : list aout) : Prop := {
  ai_tok : token s = true -> inside tr = [] /\ owner s = None;
  ai_held : token s = false -> exists p rw, inside tr = [p] /\ owner s = Some rw;
  ai_wait : forall p rw, aprocs s p = AWait rw -> token s = false;
  ai_out : forall p, aprocs s p <> AIdle -> ~ In p (inside tr)
}.

Lemma inside_app a b : inside (a ++ b) = fold_left inside_step b (inside a).
Proof. apply fold_left_app. Qed.

Lemma ainv_get s tr p rw : AInv s tr -> ~ In p (inside tr) -> AInv (fst (a_get s p rw)) (tr ++ snd (a_get s p rw)).
Proof.
  intros [T H W O] HN. unfold a_get. destruct (token s) eqn:E; cbn [fst snd].
  - destruct (T eq_refl) as [T1 T2]. constructor; cbn [token owner aprocs]; rewrite ?inside_app, ?T1; cbn; auto; try discriminate.
    + intros _. eauto.
    + intros q HQ [<-|[]]. now rewrite upd_eq in HQ.
  - rewrite app_nil_r. constructor; cbn [token owner aprocs]; auto; try discriminate.
    intros q HQ. destruct (Nat.eq_dec q p) as [->|]; auto. rewrite upd_neq in HQ by auto. auto.
Qed.

Lemma ainv_step s tr l : alabel_ok s tr l -> AInv s tr -> AInv (fst (astep s l)) (tr ++ snd (astep s l)).
Proof.
  intros HO HI. assert (HS := HI). destruct HS as [T H W O]. destruct l as [p rw|p|p|p|]; cbn [astep alabel_ok] in *.
  - destruct HO as (O1 & O2 & O3). destruct (owner s) as [o|] eqn:EO.
    + destruct (Nat.eqb_spec o rw) as [->|HN].
      * cbn. constructor; auto; rewrite inside_app; cbn; rewrite ?EO; auto.
      * apply ainv_get; auto. intros HIN. specialize (O3 HIN). congruence.
    + apply ainv_get; auto. intros HIN. specialize (O3 HIN). congruence.
  - destruct (aprocs s p) eqn:EP; cbn; rewrite ?app_nil_r; auto. apply ainv_get; auto. apply O. congruence.
  - cbn. assert (HX : inside (tr ++ [ALeft p]) = []).
    { rewrite inside_app. cbn. destruct (token s).
      - destruct (T eq_refl) as [E _]. rewrite E in HO. easy.
      - destruct (H eq_refl) as (q & rw & E & _). rewrite E in *. destruct HO as [->|[]]. cbn. now rewrite Nat.eqb_refl. }
    constructor; cbn; rewrite ?HX; auto; try discriminate.
    intros q rw. destruct (aprocs s q); discriminate.
  - cbn. assert (HX : inside (tr ++ [ALeft p]) = []).
    { rewrite inside_app. cbn. destruct (token s).
      - destruct (T eq_refl) as [E _]. rewrite E in HO. easy.
      - destruct (H eq_refl) as (q & rw & E & _). rewrite E in *. destruct HO as [->|[]]. cbn. now rewrite Nat.eqb_refl. }
    constructor; cbn; rewrite ?HX; auto; try discriminate.
    intros q rw. destruct (aprocs s q); discriminate.
  - cbn. destruct (token s) eqn:ET; [|destruct (H eq_refl) as (q & rw & E & _); rewrite E in HO; discriminate].
    destruct (T eq_refl) as [T1 T2].
    constructor; cbn; rewrite ?inside_app; cbn; auto; try discriminate.
    + intros q rw. destruct (aprocs s q); discriminate.
    + rewrite T1. auto.
Qed.

Lemma ainv_run ls : forall s tr, arun_ok s tr ls -> AInv s tr ->
  AInv (fst (run_machine astep s ls)) (tr ++ snd (run_machine astep s ls)).
Proof.
  induction ls as [|l ls IH]; intros s tr HR HI; cbn [run_machine].
  - cbn. now rewrite app_nil_r.
  - destruct HR as (HO & HR). pose proof (ainv_step s tr l HO HI) as HI'.
    destruct (astep s l) as [s1 o1]. cbn [fst snd] in *. specialize (IH _ _ HR HI').
    destruct (run_machine astep s1 ls). cbn [fst snd] in *. now rewrite app_assoc.
Qed.

Lemma ainv0 : AInv alock0 [].
Proof. constructor; cbn; auto; discriminate. Qed.

(** For every schedule of disciplined processes: at most one is inside an
    operation on the register. *)
Theorem C33_mutual_exclusion : forall ls, arun_ok alock0 [] ls ->
  (length (inside (snd (arun ls))) <= 1)%nat.
Proof.
  intros ls HR. destruct (ainv_run ls _ _ HR ainv0) as [T H W O]. cbn [app] in *. unfold arun.
  destruct (token (fst (run_machine astep alock0 ls))).
  - destruct (T eq_refl) as [-> _]. cbn. lia.
  - destruct (H eq_refl) as (p & rw & -> & _). cbn. lia.
Qed.
Print Assumptions C33_mutual_exclusion.

(** And nobody is left behind: when no operation is in progress, every pending
    process is runnable, and enters when resumed. *)
Theorem C33_progress : forall ls p rw, arun_ok alock0 [] ls ->
  inside (snd (arun ls)) = [] ->
  let s := fst (arun ls) in
  aprocs s p <> AWait rw /\
  (aprocs s p = AWoken rw -> snd (astep s (AResume p)) = [AEntered p rw]).
Proof.
  intros ls p rw HR HE s. destruct (ainv_run ls _ _ HR ainv0) as [T H W O]. cbn [app] in *.
  fold (arun ls) in T, H, W, O. fold s in T, H, W, O.
  assert (HT : token s = true).
  { destruct (token s); auto. destruct (H eq_refl) as (q & rw' & E & _). congruence. }
  split.
  - intros HW. specialize (W _ _ HW). congruence.
  - intros HW. cbn. rewrite HW. unfold a_get. now rewrite HT.
Qed.
Print Assumptions C33_progress.

(** A write refused by a hook releases the lock twice, to no effect: whatever is done
    after it, everything is as after one release. *)
Lemma alock_ext : forall ls s s',
  token s = token s' -> owner s = owner s' -> (forall q, aprocs s q = aprocs s' q) ->
  snd (run_machine astep s ls) = snd (run_machine astep s' ls).
Proof.
  induction ls as [|l ls IH]; intros s s' HT HO HP; [reflexivity|]. cbn [run_machine].
  assert (G : forall p rw, snd (a_get s p rw) = snd (a_get s' p rw) /\
     token (fst (a_get s p rw)) = token (fst (a_get s' p rw)) /\ owner (fst (a_get s p rw)) = owner (fst (a_get s' p rw)) /\
     (forall q, aprocs (fst (a_get s p rw)) q = aprocs (fst (a_get s' p rw)) q)).
  { intros p rw. unfold a_get. rewrite <- HT. destruct (token s); cbn; repeat split; auto;
    intros q; unfold upd; destruct (Nat.eqb _ _); auto. }
  assert (X : snd (astep s l) = snd (astep s' l) /\
     token (fst (astep s l)) = token (fst (astep s' l)) /\ owner (fst (astep s l)) = owner (fst (astep s' l)) /\
     (forall q, aprocs (fst (astep s l)) q = aprocs (fst (astep s' l)) q)).
  { destruct l as [p rw|p|p|p|]; cbn [astep].
    - assert (HO' := HO). rewrite <- HO. destruct (owner s) as [o|] eqn:EO; [destruct (Nat.eqb o rw); [cbn; repeat split; auto; congruence|]|]; apply G.
    - rewrite <- HP. destruct (aprocs s p); try apply G; cbn; auto.
    - cbn. repeat split. intros q. now rewrite HP.
    - cbn. repeat split. intros q. now rewrite HP.
    - cbn. repeat split; auto. intros q. now rewrite HP. }
  destruct X as (E & X1 & X2 & X3).
  destruct (astep s l) as [s1 o1], (astep s' l) as [s2 o2]. cbn [fst snd] in *. subst o2.
  specialize (IH s1 s2 X1 X2 X3). destruct (run_machine astep s1 ls), (run_machine astep s2 ls). cbn in *. now rewrite IH.
Qed.
Theorem C33_refused_write : forall s p ls,
  snd (run_machine astep s (ARefused p :: ls)) = snd (run_machine astep s (ALeave p :: ls)) /\
  astep s (ARefused p) = (fst (run_machine astep s [ALeave p; ALeave p]), [ALeft p]).
Proof.
  intros s p ls. split; [|reflexivity]. cbn [run_machine astep].
  match goal with |- context [run_machine astep ?a ls] => assert (E := alock_ext ls a (ALock true None (fun q => awake (aprocs s q))) eq_refl eq_refl) end.
  assert (H : forall q, awake (awake (aprocs s q)) = awake (aprocs s q)) by (intros q; now destruct (aprocs s q)).
  specialize (E H).
  destruct (run_machine astep _ ls) as [a b]. destruct (run_machine astep _ ls) as [c d]. cbn in *. now rewrite E.
Qed.
Print Assumptions C33_refused_write.

(** A process that never leaves (its operation raised an exception, which passes the
    release) keeps everybody else out for ever. *)
Lemma kept_run : forall p ls s tr, arun_ok s tr ls -> AInv s tr -> In p (inside tr) ->
  ~ In (ALeave p) ls -> ~ In (ARefused p) ls ->
  (forall q rw, ~ In (AEntered q rw) (snd (run_machine astep s ls))) /\
  In p (inside (tr ++ snd (run_machine astep s ls))).
Proof.
  intros p. induction ls as [|l ls IH]; intros s tr HR HI HP N1 N2; cbn [run_machine].
  - cbn. rewrite app_nil_r. split; auto.
  - destruct HR as (HO & HR). pose proof (ainv_step s tr l HO HI) as HI'.
    assert (HT : token s = false /\ inside tr = [p]).
    { destruct HI as [T H W O]. destruct (token s).
      - destruct (T eq_refl) as [E _]. rewrite E in HP. easy.
      - destruct (H eq_refl) as (q & rw & E & _). rewrite E in *. destruct HP as [->|[]]. auto. }
    destruct HT as [HT HE].
    assert (X : (forall q rw, ~ In (AEntered q rw) (snd (astep s l))) /\ In p (inside (tr ++ snd (astep s l)))).
    { rewrite inside_app, HE. destruct l as [q rw|q|q|q|]; cbn [astep alabel_ok] in *.
      - destruct (owner s) as [o|]; [destruct (Nat.eqb o rw)|]; unfold a_get; rewrite ?HT; cbn; intuition discriminate.
      - destruct (aprocs s q); unfold a_get; rewrite ?HT; cbn; intuition discriminate.
      - rewrite HE in HO. destruct HO as [->|[]]. exfalso. apply N1. now left.
      - rewrite HE in HO. destruct HO as [->|[]]. exfalso. apply N2. now left.
      - rewrite HE in HO. discriminate. }
    destruct X as [X1 X2].
    destruct (astep s l) as [s1 o1]. cbn [fst snd] in *.
    destruct (IH s1 (tr ++ o1) HR HI' X2) as [Y1 Y2]; [firstorder|firstorder|].
    destruct (run_machine astep s1 ls) as [s2 o2]. cbn [fst snd] in *. rewrite <- app_assoc in Y2. split; [|exact Y2].
    intros q rw HIN. apply in_app_iff in HIN as [HIN|HIN]; [eapply X1|eapply Y1]; eauto.
Qed.
Theorem C33_kept : forall ls ls2 p, arun_ok alock0 [] ls ->
  arun_ok (fst (arun ls)) (snd (arun ls)) ls2 ->
  In p (inside (snd (arun ls))) -> ~ In (ALeave p) ls2 -> ~ In (ARefused p) ls2 ->
  forall q rw, ~ In (AEntered q rw) (snd (run_machine astep (fst (arun ls)) ls2)).
Proof.
  intros ls ls2 p H1 H2 HP N1 N2. apply (kept_run p ls2 _ (snd (arun ls))); auto.
  pose proof (ainv_run ls _ _ H1 ainv0) as HI. exact HI.
Qed.
Print Assumptions C33_kept.

Example C33_example :
  arun_ok alock0 [] [AEnter 0 0; AEnter 1 1; AEnter 0 0; AEnter 2 2; ALeave 0; AResume 2; AResume 1; ALeave 2; AResume 1] /\
  snd (arun [AEnter 0 0; AEnter 1 1; AEnter 0 0; AEnter 2 2; ALeave 0; AResume 2; AResume 1; ALeave 2; AResume 1])
  = [AEntered 0 0; ANested 0 0; ALeft 0; AEntered 2 2; ALeft 2; AEntered 1 1] /\
  snd (arun [AEnter 0 0; AEnter 1 1; ARefused 0; AResume 1; AEnter 2 2]) = [AEntered 0 0; ALeft 0; AEntered 1 1].
Proof. split; [cbn; intuition discriminate|split; reflexivity]. Qed.
