From Coq Require Import ZArith List Bool Arith Lia.
From Verif Require Import RegFieldModel RegModel RegCbModel RegCbSpec.
From Verif Require RegFieldSpec RegFieldProofs RegProofs.
Import ListNotations.
Open Scope Z_scope.

(** ** Single calls *)
Lemma through_app : forall l1 l2 v s,
  (forall e c, In (e, c) l1 -> forall it, eff c it <> None) ->
  through (l1 ++ l2) v s = through l2 (fst (through l1 v s)) (snd (through l1 v s)).
Proof.
  induction l1 as [|[e c] l1 IH]; cbn; intros l2 v s F; [reflexivity|].
  assert (N := F e c (or_introl eq_refl) (Item v s e)).
  destruct (eff c (Item v s e)) as [[v' s']|]; [|congruence].
  apply IH. intros; eapply F; eauto.
Qed.

Lemma call_fine : forall w m c it, fine true c ->
  call true w m c it = ([Called w m (i_el it) (i_val it)],
    Ok (Item (fst (through [(i_el it, c)] (i_val it) (i_st it))) (snd (through [(i_el it, c)] (i_val it) (i_st it))) (i_el it))).
Proof.
  intros w m c [v s e] [A N]. unfold call. rewrite A. cbn. specialize (N (Item v s e)).
  destruct (eff c (Item v s e)) as [[v' s']|]; [reflexivity|congruence].
Qed.
Lemma call_plain : forall w m c it, fine false c ->
  call false w m c it = ([Called w m (i_el it) (i_val it)],
    Ok (Item (fst (through [(i_el it, c)] (i_val it) (i_st it))) (snd (through [(i_el it, c)] (i_val it) (i_st it))) (i_el it))).
Proof.
  intros w m c [v s e] [A N]. unfold call. rewrite A. cbn. specialize (N (Item v s e)).
  destruct (eff c (Item v s e)) as [[v' s']|]; [reflexivity|congruence].
Qed.
Lemma call_lost : forall w m c it, is_async c = true -> call false w m c it = ([], Ok it).
Proof. intros w m c it A. unfold call. now rewrite A. Qed.

(** ** The loops over callbacks *)
Definition no_bus (t : list ev) : Prop := bus_values t = [] /\ bus_reads t = [].
Lemma no_bus_app : forall a b, no_bus a -> no_bus b -> no_bus (a ++ b).
Proof. intros a b [A1 A2] [B1 B2]. unfold no_bus, bus_values, bus_reads in *. rewrite !flat_map_app, A1, A2, B1, B2. now split. Qed.

Lemma call_cbs_run : forall aw m l it,
  Forall (fun c => fine aw (c_code c m)) l ->
  exists t, call_cbs aw m None l it = (t, Ok (Item (fst (through (cb_codes m (i_el it) l) (i_val it) (i_st it)))
                                                  (snd (through (cb_codes m (i_el it) l) (i_val it) (i_st it))) (i_el it)))
  /\ map shape t = cb_calls m (i_el it) l /\ no_bus t.
Proof.
  induction l as [|c l IH]; intros it F.
  - exists []. destruct it; cbn. repeat split.
  - inversion F as [|? ? F1 F2]; subst. cbn [call_cbs].
    assert (E : call aw (WCb (c_id c)) m (c_code c m) it =
      ([Called (WCb (c_id c)) m (i_el it) (i_val it)],
       Ok (Item (fst (through [(i_el it, c_code c m)] (i_val it) (i_st it))) (snd (through [(i_el it, c_code c m)] (i_val it) (i_st it))) (i_el it)))).
    { destruct aw; [now apply call_fine | now apply call_plain]. }
    rewrite E. cbn [andthen].
    destruct (IH (Item (fst (through [(i_el it, c_code c m)] (i_val it) (i_st it))) (snd (through [(i_el it, c_code c m)] (i_val it) (i_st it))) (i_el it)) F2)
      as (t & E2 & Sh & NB).
    rewrite E2. eexists. split; [|split].
    + f_equal. f_equal. cbn [i_el i_val i_st].
      change (cb_codes m (i_el it) (c :: l)) with ([(i_el it, c_code c m)] ++ cb_codes m (i_el it) l).
      rewrite through_app; [reflexivity|].
      intros e0 c0 [H|[]]. injection H as <- <-. apply F1.
    + cbn. f_equal. exact Sh.
    + apply no_bus_app; [now split|exact NB].
Qed.

Lemma call_cbs_set : forall m e l it,
  call_cbs true m (Some e) l it =
  match l with [] => ([], Ok it) | _ => call_cbs true m None l (set_el it e) end.
Proof.
  intros m e l. destruct l as [|c l]; intros it; [reflexivity|]. cbn [call_cbs].
  unfold andthen. destruct (call true (WCb (c_id c)) m (c_code c m) (set_el it e)) as [t [it'|x]] eqn:E; [|reflexivity].
  assert (He : i_el it' = e).
  { unfold call in E. cbn [negb] in E. rewrite andb_false_r in E.
    destruct (eff _ _) as [[? ?]|]; [|congruence].
    destruct (_ || _); [|congruence]. now injection E as <- <-. }
  clear E. f_equal.
  assert (G : forall l it', i_el it' = e -> call_cbs true m (Some e) l it' = call_cbs true m None l it').
  { clear. induction l as [|c l IH]; intros it' He; [reflexivity|]. cbn [call_cbs].
    assert (set_el it' e = it') as -> by (destruct it'; cbn in *; now subst).
    unfold andthen. destruct (call true (WCb (c_id c)) m (c_code c m) it') as [t [it2|x]] eqn:E; [|reflexivity].
    rewrite IH; [reflexivity|].
    unfold call in E. cbn [negb] in E. rewrite andb_false_r in E.
    destruct (eff _ _) as [[? ?]|]; [|congruence].
    destruct (_ || _); [|congruence]. now injection E as <- <-. }
  now rewrite G.
Qed.

Lemma call_cbs_lost : forall m l it,
  Forall (fun c => is_async (c_code c m) = true) l -> call_cbs false m None l it = ([], Ok it).
Proof.
  induction l as [|c l IH]; intros it F; [reflexivity|]. inversion F as [|? ? F1 F2]; subst. cbn [call_cbs].
  rewrite call_lost by assumption. cbn [andthen]. rewrite IH by assumption. reflexivity.
Qed.

(** ** Parts of values *)
Lemma part_bits : forall v f k, 0 <= lsb f -> 0 <= size f -> 0 <= k ->
  Z.testbit (part v f) k = (k <? size f) && Z.testbit v (lsb f + k).
Proof.
  intros v f k L Sz K. unfold part.
  destruct (Z.ltb_spec k (size f)).
  - rewrite Z.mod_pow2_bits_low by lia. rewrite Z.div_pow2_bits by lia. now rewrite Z.add_comm.
  - rewrite Z.mod_pow2_bits_high by lia. reflexivity.
Qed.
Lemma slice_part : forall v f, 0 <= lsb f -> 0 <= size f -> slice v f = part v f.
Proof.
  intros. unfold slice, part. rewrite Z.shiftr_div_pow2 by lia.
  rewrite Z.shiftl_mul_pow2, Z.mul_1_l by lia.
  replace (2 ^ size f - 1) with (Z.ones (size f)) by (rewrite Z.ones_equiv; lia).
  now rewrite Z.land_ones by lia.
Qed.
Lemma fmask_bits : forall f k, 0 <= lsb f -> 0 <= size f -> 0 <= k ->
  Z.testbit (fmask f) k = (lsb f <=? k) && (k <? lsb f + size f).
Proof.
  intros f k L Sz K. unfold fmask. rewrite Z.shiftl_spec by lia.
  replace (Z.shiftl 1 (size f) - 1) with (Z.ones (size f))
    by (rewrite Z.ones_equiv, Z.shiftl_mul_pow2 by lia; lia).
  destruct (Z.leb_spec (lsb f) k); cbn [andb].
  - destruct (Z.ltb_spec k (lsb f + size f)).
    + apply Z.ones_spec_low. lia.
    + apply Z.ones_spec_high. lia.
  - apply Z.testbit_neg_r. lia.
Qed.
Lemma taken_part : forall v f, 0 <= lsb f -> 0 <= size f -> Z.shiftr (Z.land v (fmask f)) (lsb f) = part v f.
Proof.
  intros v f L Sz. apply Z.bits_inj'. intros k K.
  rewrite Z.shiftr_spec, Z.land_spec, fmask_bits, part_bits by lia.
  replace (lsb f <=? k + lsb f) with true by (symmetry; apply Z.leb_le; lia).
  rewrite (Z.add_comm (lsb f) (size f)), (Z.add_comm (lsb f) k). cbn [andb].
  rewrite andb_comm. f_equal.
  destruct (Z.ltb_spec k (size f)), (Z.ltb_spec (k + lsb f) (size f + lsb f)); try reflexivity; lia.
Qed.
Lemma put_back_bits : forall v f o k, 0 <= lsb f -> 0 <= size f -> 0 <= o < 2 ^ size f -> 0 <= k ->
  Z.testbit (Z.lor (Z.land v (Z.lnot (fmask f))) (Z.shiftl o (lsb f))) k =
  if (lsb f <=? k) && (k <? lsb f + size f) then Z.testbit o (k - lsb f) else Z.testbit v k.
Proof.
  intros v f o k L Sz O K.
  rewrite Z.lor_spec, Z.land_spec, Z.lnot_spec, fmask_bits, Z.shiftl_spec by lia.
  destruct (Z.leb_spec (lsb f) k); cbn [andb].
  - destruct (Z.ltb_spec k (lsb f + size f)); cbn [negb].
    + now rewrite andb_false_r.
    + rewrite andb_true_r.
      assert (Z.testbit o (k - lsb f) = false) as ->; [|now rewrite orb_false_r].
      destruct (Z.eq_dec o 0) as [->|]; [apply Z.bits_0|].
      apply Z.bits_above_log2; [lia|].
      assert (Z.log2 o < size f) by (apply Z.log2_lt_pow2; lia). lia.
  - rewrite (Z.testbit_neg_r o) by lia. now rewrite orb_false_r, andb_true_r.
Qed.

(** ** The fields before a write *)
Definition fine_fields (fs : list cfield) : Prop :=
  Forall (fun f => fine_hooks (cf_hook f) /\ Forall fine_cb (cf_cbs f)) fs.
Definition geom (fs : list cfield) : Prop :=
  Forall (fun f => 0 < size (cf f) /\ 0 <= lsb (cf f)) fs.

Lemma pre_outcomes_cong : forall l e v v' s,
  (forall i f, In (i, f) l -> part v (cf f) = part v' (cf f)) ->
  pre_outcomes e l v s = pre_outcomes e l v' s.
Proof.
  induction l as [|[i f] l IH]; intros e v v' s H; [reflexivity|]. cbn [pre_outcomes].
  rewrite (H i f (or_introl eq_refl)). destruct (through _ _ _) as [o s1].
  rewrite (IH _ v v'); [reflexivity|]. intros; eapply H; right; eauto.
Qed.
Lemma in_number : forall A (l : list A) i j x, In (j, x) (number i l) -> In x l.
Proof. induction l as [|y l IH]; cbn; intros i j x H; [contradiction|]. destruct H as [H|H]; [injection H as <- <-; auto|right; eauto]. Qed.

Lemma fields_pre_write_runs : forall fs i value it,
  fine_fields fs -> geom fs ->
  exists t x it', fields_pre_write i fs value it = (t, Ok (x, it')) /\
    map shape t = pre_write_fields (i_el it) (number i fs) /\ no_bus t.
Proof.
  induction fs as [|f fs IH]; intros i value it F G.
  - exists [], value, it. repeat split.
  - inversion F as [|? ? [Fh Fc] F2]; subst. inversion G as [|? ? [Gs Gl] G2]; subst.
    cbn [fields_pre_write number pre_write_fields].
    rewrite call_fine by apply Fh. cbn [andthen]. rewrite call_cbs_set.
    set (it1 := Item _ _ _).
    assert (Fc' : Forall (fun c => fine true (c_code c PreWrite)) (cf_cbs f)).
    { eapply Forall_impl; [|exact Fc]. intros c Hc. apply (Hc PreWrite). }
    assert (R : exists t it2, (match cf_cbs f with [] => ([], Ok it1) | _ :: _ => call_cbs true PreWrite None (cf_cbs f) (set_el it1 (EFld i)) end)
       = (t, Ok it2) /\ i_el it2 = after_field (i_el it) i f /\ map shape t = cb_calls PreWrite (EFld i) (cf_cbs f) /\ no_bus t).
    { unfold after_field. destruct (cf_cbs f) as [|c l] eqn:Ec.
      - exists [], it1. repeat split.
      - destruct (call_cbs_run true PreWrite (c :: l) (set_el it1 (EFld i)) Fc') as (t & E & Sh & NB).
        rewrite E. do 2 eexists. split; [reflexivity|]. split; [reflexivity|]. split; [exact Sh|exact NB]. }
    destruct R as (t2 & it2 & E2 & El & Sh2 & NB2). rewrite E2. cbn [andthen].
    destruct (IH (S i) (Z.lor (Z.land value (Z.lnot (fmask (cf f)))) (Z.shiftl (i_val it2) (lsb (cf f)))) it2 F2 G2)
      as (t3 & x & it3 & E3 & Sh3 & NB3).
    rewrite E3. do 3 eexists. split; [reflexivity|]. split.
    + cbn [map app]. rewrite !map_app, Sh2, Sh3, El. reflexivity.
    + apply no_bus_app; [now split|]. apply no_bus_app; assumption.
Qed.

Lemma fields_pre_write_value : forall fs i value it,
  fine_fields fs -> geom fs ->
  (forall a b f g k, nth_error fs a = Some f -> nth_error fs b = Some g -> in_field k (cf f) -> in_field k (cf g) -> a = b) ->
  Forall2 fits fs (fst (pre_outcomes (i_el it) (number i fs) value (i_st it))) ->
  exists t x it', fields_pre_write i fs value it = (t, Ok (x, it')) /\
    i_st it' = snd (pre_outcomes (i_el it) (number i fs) value (i_st it)) /\
    assembled value fs (fst (pre_outcomes (i_el it) (number i fs) value (i_st it))) x.
Proof.
  induction fs as [|f fs IH]; intros i value it F G D Fi.
  - exists [], value, it. repeat split; cbn; intros; destruct j; discriminate.
  - inversion F as [|? ? [Fh Fc] F2]; subst. inversion G as [|? ? [Gs Gl] G2]; subst.
    cbn [fields_pre_write number pre_outcomes] in *.
    rewrite taken_part by lia. rewrite call_fine by apply Fh. cbn [andthen]. rewrite call_cbs_set.
    cbn [i_el i_val i_st set_val] in *.
    set (it1 := Item _ _ _).
    assert (Fc' : Forall (fun c => fine true (c_code c PreWrite)) (cf_cbs f)).
    { eapply Forall_impl; [|exact Fc]. intros c Hc. apply (Hc PreWrite). }
    remember (through ((i_el it, cf_hook f PreWrite) :: cb_codes PreWrite (EFld i) (cf_cbs f)) (part value (cf f)) (i_st it)) as th eqn:Eth.
    assert (R : exists t it2, (match cf_cbs f with [] => ([], Ok it1) | _ :: _ => call_cbs true PreWrite None (cf_cbs f) (set_el it1 (EFld i)) end)
       = (t, Ok it2) /\ i_el it2 = after_field (i_el it) i f /\ i_val it2 = fst th /\ i_st it2 = snd th).
    { unfold after_field.
      change ((i_el it, cf_hook f PreWrite) :: cb_codes PreWrite (EFld i) (cf_cbs f))
        with ([(i_el it, cf_hook f PreWrite)] ++ cb_codes PreWrite (EFld i) (cf_cbs f)) in Eth.
      rewrite through_app in Eth by (intros e0 c0 [H|[]]; injection H as <- <-; apply Fh).
      destruct (cf_cbs f) as [|c l] eqn:Ec.
      - exists [], it1. cbn in Eth. subst th. repeat split.
      - destruct (call_cbs_run true PreWrite (c :: l) (set_el it1 (EFld i)) Fc') as (t & E & Sh & NB).
        rewrite E. do 2 eexists. split; [reflexivity|]. split; [reflexivity|]. subst th. split; reflexivity. }
    destruct R as (t2 & it2 & E2 & El & Ev & Es). rewrite E2. cbn [andthen].
    destruct th as [o s1]. cbn [fst snd] in Ev, Es.
    destruct (pre_outcomes (after_field (i_el it) i f) (number (S i) fs) value s1) as [os s2] eqn:Ep.
    cbn [fst snd] in *. inversion Fi as [|? ? ? ? Fo Fos]; subst.
    set (v2 := Z.lor (Z.land value (Z.lnot (fmask (cf f)))) (Z.shiftl (i_val it2) (lsb (cf f)))).
    assert (V2 : forall k, 0 <= k -> Z.testbit v2 k =
       if (lsb (cf f) <=? k) && (k <? lsb (cf f) + size (cf f)) then Z.testbit (i_val it2) (k - lsb (cf f)) else Z.testbit value k).
    { intros k K. apply put_back_bits; try lia. exact Fo. }
    assert (Dis : forall g, In g fs -> forall k, in_field k (cf g) -> ~ in_field k (cf f)).
    { intros g Hg k K1 K2. apply In_nth_error in Hg as [n Hn].
      assert (0%nat = S n) by (eapply (D 0%nat (S n) f g k); auto). discriminate. }
    assert (Ep2 : pre_outcomes (i_el it2) (number (S i) fs) v2 (i_st it2) = (os, s2)).
    { rewrite El. rewrite (pre_outcomes_cong _ _ v2 value); [exact Ep|].
      intros j g Hg. assert (Hg' := in_number _ _ _ _ _ Hg).
      rewrite Forall_forall in G2. destruct (G2 g Hg').
      apply Z.bits_inj'. intros k K. rewrite !part_bits by lia.
      destruct (Z.ltb_spec k (size (cf g))); cbn [andb]; [|reflexivity].
      rewrite V2 by lia.
      assert (N := Dis g Hg' (lsb (cf g) + k)). unfold in_field in N.
      replace ((lsb (cf f) <=? lsb (cf g) + k) && (lsb (cf g) + k <? lsb (cf f) + size (cf f))) with false; [reflexivity|].
      symmetry. apply andb_false_iff. rewrite Z.leb_gt, Z.ltb_ge. lia. }
    assert (D2 : forall a b f0 g k, nth_error fs a = Some f0 -> nth_error fs b = Some g -> in_field k (cf f0) -> in_field k (cf g) -> a = b).
    { intros a b f0 g k Ha Hb K1 K2. assert (S a = S b) by (eapply (D (S a) (S b)); eauto). lia. }
    destruct (IH (S i) v2 it2 F2 G2 D2) as (t3 & x & it3 & E3 & St & As).
    { rewrite Ep2. exact Fos. }
    rewrite E3. do 3 eexists. split; [reflexivity|]. rewrite Ep2 in St, As. cbn [fst snd] in St, As.
    split; [exact St|]. destruct As as [A1 A2]. split.
    + intros [|j] g o' Hj Ho k K; cbn in Hj, Ho.
      * injection Hj as <-. injection Ho as <-.
        rewrite A2; [|lia|].
        -- rewrite V2 by lia.
           replace ((lsb (cf f) <=? lsb (cf f) + k) && (lsb (cf f) + k <? lsb (cf f) + size (cf f))) with true
             by (symmetry; apply andb_true_iff; rewrite Z.leb_le, Z.ltb_lt; lia).
           f_equal. lia.
        -- intros g Hg K1. apply (Dis g Hg _ K1). unfold in_field. lia.
      * eapply A1; eauto.
    + intros k K N. rewrite A2; [|assumption|intros g Hg; apply N; now right].
      rewrite V2 by lia.
      assert (N1 := N f (or_introl eq_refl)). unfold in_field in N1.
      replace ((lsb (cf f) <=? k) && (k <? lsb (cf f) + size (cf f))) with false; [reflexivity|].
      symmetry. apply andb_false_iff. rewrite Z.leb_gt, Z.ltb_ge. lia.
Qed.

(** ** Registers with the same code *)
Definition alike (f g : cfield) : Prop :=
  cf_hook f = cf_hook g /\ cf_cbs f = cf_cbs g /\ lsb (cf f) = lsb (cf g) /\ size (cf f) = size (cf g).
Definition alikes := Forall2 alike.
Lemma alikes_refl : forall l, alikes l l.
Proof. induction l; constructor; auto. repeat split. Qed.
Lemma alikes_trans : forall a b c, alikes a b -> alikes b c -> alikes a c.
Proof.
  intros a b c H. revert c. induction H as [|x y l l' A H IH]; intros c H2; inversion H2; subst; constructor.
  - destruct A as (?&?&?&?). match goal with H : alike y _ |- _ => destruct H as (?&?&?&?) end. repeat split; congruence.
  - now apply IH.
Qed.
Lemma alikes_pre_fields : forall a b, alikes a b -> forall e i, pre_write_fields e (number i a) = pre_write_fields e (number i b).
Proof.
  induction 1 as [|f g a b Af H IH]; intros e i; [reflexivity|]. cbn [number pre_write_fields].
  destruct Af as (_ & C & _). unfold after_field. rewrite C, IH. reflexivity.
Qed.
Lemma alikes_cbs : forall a b, alikes a b -> map cf_cbs a = map cf_cbs b.
Proof. induction 1 as [|f g a b Af H IH]; [reflexivity|]. cbn. destruct Af as (_ & -> & _). now f_equal. Qed.
Lemma alikes_outcomes : forall a b, alikes a b -> forall e i v s, pre_outcomes e (number i a) v s = pre_outcomes e (number i b) v s.
Proof.
  induction 1 as [|f g a b Af H IH]; intros e i v s; [reflexivity|]. cbn [number pre_outcomes].
  destruct Af as (Hh & C & L & Sz). unfold after_field, part. rewrite Hh, C, L, Sz.
  destruct (through _ _ _) as [o s1]. rewrite IH. reflexivity.
Qed.
Lemma alikes_assembled : forall a b, alikes a b -> forall v os x, assembled v a os x -> assembled v b os x.
Proof.
  intros a b H v os x [A1 A2]. split.
  - intros j g o Hg Ho k K.
    assert (exists f, nth_error a j = Some f /\ alike f g) as (f & Hf & (_ & _ & L & Sz)).
    { clear -H Hg. revert j Hg. induction H as [|f0 g0 a b Af H IH]; intros [|j] Hg; cbn in *; try discriminate.
      - injection Hg as <-. eauto.
      - eauto. }
    rewrite <- L. eapply A1; eauto. now rewrite Sz.
  - intros k K N. apply A2; [assumption|]. intros f Hf If.
    assert (exists g, In g b /\ alike f g) as (g & Hg & (_ & _ & L & Sz)).
    { clear -H Hf. induction H as [|f0 g0 a b Af H IH]; cbn in *; [contradiction|]. destruct Hf as [->|Hf]; [eauto|]. destruct (IH Hf) as (g & ? & ?). eauto. }
    apply (N g Hg). unfold in_field in *. lia.
Qed.
Lemma alikes_fine : forall a b, alikes a b -> fine_fields a -> fine_fields b.
Proof.
  induction 1 as [|f g a b Af H IH]; intros F; [constructor|]. inversion F as [|? ? [F1 F1'] F2]; subst. constructor; [|now apply IH].
  destruct Af as (<- & <- & _). now split.
Qed.
Lemma alikes_geom : forall a b, alikes a b -> geom a -> geom b.
Proof.
  induction 1 as [|f g a b Af H IH]; intros F; [constructor|]. inversion F; subst. constructor; [|now apply IH].
  destruct Af as (_ & _ & <- & <-). assumption.
Qed.
Lemma alikes_fits : forall a b, alikes a b -> forall os, Forall2 fits a os -> Forall2 fits b os.
Proof.
  induction 1 as [|f g a b Af H IH]; intros os F; inversion F; subst; constructor; auto.
  destruct Af as (_ & _ & _ & Sz). unfold fits in *. now rewrite <- Sz.
Qed.
Lemma alikes_disj : forall a b, alikes a b ->
  (forall i j f g k, nth_error a i = Some f -> nth_error a j = Some g -> in_field k (cf f) -> in_field k (cf g) -> i = j) ->
  (forall i j f g k, nth_error b i = Some f -> nth_error b j = Some g -> in_field k (cf f) -> in_field k (cf g) -> i = j).
Proof.
  intros a b H D i j f g k Hi Hj Kf Kg.
  assert (P : forall n g, nth_error b n = Some g -> exists f, nth_error a n = Some f /\ alike f g).
  { clear -H. induction H as [|f0 g0 a b Af H IH]; intros [|n] g Hg; cbn in *; try discriminate.
    - injection Hg as <-. eauto.
    - eauto. }
  destruct (P i f Hi) as (f' & Hf' & (_ & _ & L1 & S1)). destruct (P j g Hj) as (g' & Hg' & (_ & _ & L2 & S2)).
  eapply (D i j f' g' k); eauto; unfold in_field in *; lia.
Qed.

Lemma last_cbs_last : forall r, last_cbs r = write_cbs r.
Proof.
  intros r. unfold last_cbs, write_cbs.
  destruct (cr_fields r) as [|f l] using rev_ind; [reflexivity|].
  rewrite rev_app_distr, map_app. cbn. now rewrite last_last.
Qed.
Lemma alikes_write_cbs : forall r fs, alikes (cr_fields r) fs -> write_cbs (with_cfields r fs) = write_cbs r.
Proof. intros r fs H. unfold write_cbs. cbn. now rewrite <- (alikes_cbs _ _ H). Qed.

(** ** Predictions *)
Lemma field_predict_alike : forall i f v k m, alike f (fst (field_predict i f v k m)).
Proof.
  intros i f v k m. unfold field_predict.
  destruct (has_pp k (cf f) m).
  - destruct (post_predict _ _ _ _) as [t [[]|e]]; destruct k; repeat split.
  - destruct k; repeat split.
Qed.
Lemma reg_do_predict_alike : forall fs i v k m, alikes fs (fst (reg_do_predict i fs v k m)).
Proof.
  induction fs as [|f fs IH]; intros i v k m; [constructor|]. cbn [reg_do_predict].
  assert (A := field_predict_alike i f (slice v (cf f)) k m).
  destruct (field_predict i f (slice v (cf f)) k m) as [f' [t [u|e]]]; cbn [fst] in A.
  - specialize (IH (S i) v k m). destruct (reg_do_predict (S i) fs v k m) as [fs' [t2 o]]. now constructor.
  - cbn. constructor; [exact A|apply alikes_refl].
Qed.
Lemma post_predict_fine : forall i l prev v, Forall pp_fine l ->
  post_predict i l prev v = (map (fun c => Predicted (c_id c) i prev v) l, Ok tt).
Proof.
  induction l as [|c l IH]; intros prev v F; [reflexivity|]. inversion F as [|? ? (g & E & G) F2]; subst.
  cbn [post_predict]. rewrite E, G. cbn [andthen]. now rewrite IH.
Qed.
Definition told (i : nat) (l : list cb) (prev v : Z) : list ev := map (fun c => Predicted (c_id c) i prev v) l.
Lemma post_predict_no_bus : forall i l prev v, no_bus (fst (post_predict i l prev v)).
Proof.
  induction l as [|c l IH]; intros prev v; [now split|]. cbn [post_predict].
  destruct (c_pp c) as [g|]; [|now split]. destruct (g prev v); cbn [andthen]; [|now split].
  specialize (IH prev v). destruct (post_predict i l prev v). cbn in *. apply (no_bus_app [_]); [now split|exact IH].
Qed.
Lemma reg_do_predict_no_bus : forall fs i v k m, no_bus (fst (snd (reg_do_predict i fs v k m))).
Proof.
  induction fs as [|f fs IH]; intros i v k m; [now split|]. cbn [reg_do_predict].
  assert (A : no_bus (fst (snd (field_predict i f (slice v (cf f)) k m)))).
  { unfold field_predict. destruct (has_pp k (cf f) m).
    - assert (P := post_predict_no_bus i (cf_cbs f) (mirrored (cf f)) (raw_predicted k (cf f) (slice v (cf f)) m)).
      destruct (post_predict _ _ _ _) as [t [[]|e]]; exact P.
    - destruct k; now split. }
  destruct (field_predict i f (slice v (cf f)) k m) as [f' [t [u|e]]]; cbn [fst snd] in A; [|exact A].
  specialize (IH (S i) v k m). destruct (reg_do_predict (S i) fs v k m) as [fs' [t2 o]]. now apply no_bus_app.
Qed.

(** ** The fields after the access *)
Lemma fields_post_write_runs : forall fs i v it, fine_fields fs -> geom fs ->
  exists t it', fields_post PostWrite i fs v it = (t, Ok it') /\
    map shape t = map (fun x => SCall (WFld (fst x)) PostWrite (EFld (fst x))) (number i fs) /\ no_bus t /\
    i_st it' = post_write_status_fields (number i fs) v (i_st it).
Proof.
  induction fs as [|f fs IH]; intros i v it F G.
  - exists [], it. repeat split.
  - inversion F as [|? ? [Fh Fc] F2]; subst. inversion G as [|? ? [Gs Gl] G2]; subst. cbn [fields_post].
    rewrite call_cbs_lost by (eapply Forall_impl; [|exact Fc]; intros c Hc; apply (Hc PostWrite)).
    cbn [andthen]. rewrite call_fine by apply Fh. cbn [andthen].
    match goal with |- context [fields_post PostWrite (S i) fs v ?x] => destruct (IH (S i) v x F2 G2) as (t & it' & E & Sh & NB & St) end.
    rewrite E. do 2 eexists. split; [reflexivity|]. split; [cbn [app map number fst]; now rewrite Sh|].
    split; [apply (no_bus_app [_]); [now split|exact NB]|].
    rewrite St. cbn [i_st i_val i_el]. rewrite slice_part by lia. reflexivity.
Qed.
Lemma fields_post_read_runs : forall fs i v it, fine_fields fs -> geom fs ->
  exists t it', fields_post PostRead i fs v it = (t, Ok it') /\
    map shape t = flat_map (fun x : nat * cfield =>
      cb_calls PostRead (EFld (fst x)) (cf_cbs (snd x)) ++ [SCall (WFld (fst x)) PostRead (EFld (fst x))]) (number i fs)
    /\ no_bus t /\ i_st it' = post_read_status (number i fs) v (i_st it).
Proof.
  induction fs as [|f fs IH]; intros i v it F G.
  - exists [], it. repeat split.
  - inversion F as [|? ? [Fh Fc] F2]; subst. inversion G as [|? ? [Gs Gl] G2]; subst. cbn [fields_post].
    assert (Fc' : Forall (fun c => fine false (c_code c PostRead)) (cf_cbs f)).
    { eapply Forall_impl; [|exact Fc]. intros c Hc. apply (Hc PostRead). }
    destruct (call_cbs_run false PostRead (cf_cbs f) (Item (slice v (cf f)) (i_st it) (EFld i)) Fc') as (t & E & Sh & NB).
    rewrite E. cbn [andthen]. rewrite call_fine by apply Fh. cbn [andthen].
    match goal with |- context [fields_post PostRead (S i) fs v ?x] => destruct (IH (S i) v x F2 G2) as (t2 & it' & E2 & Sh2 & NB2 & St) end.
    rewrite E2. do 2 eexists. split; [reflexivity|].
    split; [cbn [number flat_map fst snd]; rewrite !map_app; cbn [map]; rewrite Sh, Sh2; cbn [i_el shape]; now rewrite <- app_assoc|].
    split; [apply no_bus_app; [exact NB|]; apply (no_bus_app [_]); [now split|exact NB2]|].
    rewrite St. cbn [number post_read_status i_st i_val i_el]. rewrite slice_part by lia. f_equal.
    rewrite through_app; [reflexivity|].
    intros e c H. unfold cb_codes in H. apply in_map_iff in H as (c0 & H & Hin). injection H as <- <-.
    rewrite Forall_forall in Fc'. apply (Fc' c0 Hin).
Qed.
Lemma fields_pre_read_runs : forall fs i it, fine_fields fs ->
  exists t it', fields_pre_read i fs it = (t, Ok it') /\
    map shape t = flat_map (fun x : nat * cfield =>
      SCall (WFld (fst x)) PreRead (EFld (fst x)) :: cb_calls PreRead (EFld (fst x)) (cf_cbs (snd x))) (number i fs)
    /\ no_bus t.
Proof.
  induction fs as [|f fs IH]; intros i it F.
  - exists [], it. repeat split.
  - inversion F as [|? ? [Fh Fc] F2]; subst. cbn [fields_pre_read].
    rewrite call_fine by apply Fh. cbn [andthen set_el i_el i_val i_st].
    assert (Fc' : Forall (fun c => fine true (c_code c PreRead)) (cf_cbs f)).
    { eapply Forall_impl; [|exact Fc]. intros c Hc. apply (Hc PreRead). }
    match goal with |- context [call_cbs true PreRead None (cf_cbs f) ?x] =>
      destruct (call_cbs_run true PreRead (cf_cbs f) x Fc') as (t & E & Sh & NB) end.
    rewrite E. cbn [andthen].
    match goal with |- context [fields_pre_read (S i) fs ?x] => destruct (IH (S i) x F2) as (t2 & it' & E2 & Sh2 & NB2) end.
    rewrite E2. do 2 eexists. split; [reflexivity|].
    split; [cbn [number flat_map fst snd app map]; rewrite map_app, Sh, Sh2; reflexivity|].
    apply (no_bus_app [_]); [now split|]. now apply no_bus_app.
Qed.

(** ** Whole writes *)
Definition setv (v : Z) (r : creg) : creg :=
  with_cfields r (map (fun f => map_field (fun g => f_set g (slice v g)) f) (cr_fields r)).
Lemma setv_alikes : forall v r, alikes (cr_fields r) (cr_fields (setv v r)).
Proof.
  intros v r. unfold setv. cbn. induction (cr_fields r) as [|f l IH]; constructor; [|exact IH].
  repeat split.
Qed.
Definition pre_w (r : creg) (value : Z) : list ev * outc item :=
  andthen (fields_pre_write 0 (cr_fields r) value (Item value IS_OK EReg)) (fun x =>
      let '(value, it) := x in
      let it := Item value (i_st it) EReg in
      andthen (call true WReg PreWrite (cr_hook r PreWrite) it) (fun it =>
      call_cbs true PreWrite None (last_cbs r) it)).
Definition masked (v : Z) (r : creg) : Z := Z.land v (Z.shiftl 1 (cr_bits r) - 1).

Lemma write_cbs_fine : forall r, fine_calls r -> Forall fine_cb (write_cbs r).
Proof.
  intros r (_ & Fr & Ff). unfold write_cbs.
  induction (cr_fields r) as [|f l IH] using rev_ind; [exact Fr|].
  rewrite map_app. cbn. rewrite last_last. apply Forall_app in Ff as [_ Ff]. now inversion Ff as [|? ? [_ X] _]; subst.
Qed.

Lemma pre_w_runs : forall r value, fine_calls r -> geom (cr_fields r) ->
  exists t it, pre_w r value = (t, Ok it) /\ i_el it = EReg /\ map shape t = pre_write_order r /\ no_bus t.
Proof.
  intros r value Fi G. assert (Fi' := Fi). destruct Fi' as (Fh & Fc & Ff). unfold pre_w.
  destruct (fields_pre_write_runs (cr_fields r) 0 value (Item value IS_OK EReg) Ff G) as (t & x & it & E & Sh & NB).
  rewrite E. cbn [andthen]. rewrite call_fine by apply Fh. cbn [andthen]. rewrite last_cbs_last.
  match goal with |- context [call_cbs true PreWrite None _ ?x] =>
    destruct (call_cbs_run true PreWrite (write_cbs r) x) as (t2 & E2 & Sh2 & NB2) end.
  { eapply Forall_impl; [|now apply write_cbs_fine]. intros c Hc. apply (Hc PreWrite). }
  rewrite E2. do 2 eexists. split; [reflexivity|]. split; [reflexivity|].
  split.
  - rewrite map_app, Sh. cbn [app map shape i_el]. rewrite Sh2. reflexivity.
  - apply no_bus_app; [exact NB|]. apply (no_bus_app [_]); [now split|exact NB2].
Qed.
Lemma pre_w_value : forall r value, fine_calls r -> placed r ->
  let (os, s1) := pre_outcomes EReg (number 0 (cr_fields r)) value IS_OK in
  Forall2 fits (cr_fields r) os ->
  exists t it x, pre_w r value = (t, Ok it) /\ assembled value (cr_fields r) os x /\
    (i_val it, i_st it) = through ((EReg, cr_hook r PreWrite) :: cb_codes PreWrite EReg (write_cbs r)) x s1.
Proof.
  intros r value Fi (_ & G & D). assert (Fi' := Fi). destruct Fi' as (Fh & Fc & Ff).
  destruct (pre_outcomes EReg (number 0 (cr_fields r)) value IS_OK) as [os s1] eqn:Ep. intros Ft.
  destruct (fields_pre_write_value (cr_fields r) 0 value (Item value IS_OK EReg) Ff G D) as (t & x & it & E & St & As).
  { cbn [i_el i_st]. rewrite Ep. exact Ft. }
  cbn [i_el i_st] in St, As. rewrite Ep in St, As. cbn [fst snd] in St, As.
  unfold pre_w. rewrite E. cbn [andthen]. rewrite call_fine by apply Fh. cbn [andthen]. rewrite last_cbs_last.
  match goal with |- context [call_cbs true PreWrite None _ ?x] =>
    destruct (call_cbs_run true PreWrite (write_cbs r) x) as (t2 & E2 & Sh2 & NB2) end.
  { eapply Forall_impl; [|now apply write_cbs_fine]. intros c Hc. apply (Hc PreWrite). }
  rewrite E2. do 3 eexists. split; [reflexivity|]. split; [exact As|].
  cbn [i_el i_val i_st]. rewrite St.
  change ((EReg, cr_hook r PreWrite) :: cb_codes PreWrite EReg (write_cbs r))
    with ([(EReg, cr_hook r PreWrite)] ++ cb_codes PreWrite EReg (write_cbs r)).
  rewrite through_app by (intros e0 c0 [H|[]]; injection H as <- <-; apply Fh).
  now rewrite <- surjective_pairing.
Qed.

Lemma fine_calls_alikes : forall r fs, alikes (cr_fields r) fs -> fine_calls r -> fine_calls (with_cfields r fs).
Proof. intros r fs A (Fh & Fc & Ff). split; [exact Fh|]. split; [exact Fc|]. cbn. eapply alikes_fine; eauto. Qed.
Lemma post_order_alikes : forall r fs, alikes (cr_fields r) fs -> post_write_order (with_cfields r fs) = post_write_order r.
Proof.
  intros r fs A. unfold post_write_order. rewrite alikes_write_cbs by assumption. f_equal. f_equal. cbn [cr_fields with_cfields].
  symmetry. revert A. generalize 0%nat. generalize (cr_fields r). intros l n A. revert n.
  induction A as [|f g a b Af A IH]; intros n; [reflexivity|]. cbn. now rewrite IH.
Qed.
Lemma pre_order_alikes : forall r fs, alikes (cr_fields r) fs -> pre_write_order (with_cfields r fs) = pre_write_order r.
Proof.
  intros r fs A. unfold pre_write_order. rewrite alikes_write_cbs by assumption. cbn [cr_fields with_cfields].
  now rewrite (alikes_pre_fields _ _ A).
Qed.

Definition post_w (r : creg) (v : Z) (it : item) : list ev * outc item :=
  andthen (call_cbs true PostWrite None (last_cbs r) it) (fun it' =>
  andthen (call true WReg PostWrite (cr_hook r PostWrite) it') (fun it' =>
  fields_post PostWrite 0 (cr_fields r) v it')).
Lemma post_w_runs : forall r v it, fine_calls r -> geom (cr_fields r) -> i_el it = EReg ->
  exists t it', post_w r v it = (t, Ok it') /\ map shape t = post_write_order r /\ no_bus t /\
    i_st it' = post_write_status_fields (number 0 (cr_fields r)) v
      (snd (through (cb_codes PostWrite EReg (write_cbs r) ++ [(EReg, cr_hook r PostWrite)]) (i_val it) (i_st it))).
Proof.
  intros r v it Fi G El. assert (Fi' := Fi). destruct Fi' as (Fh & Fc & Ff). unfold post_w. rewrite last_cbs_last.
  destruct (call_cbs_run true PostWrite (write_cbs r) it) as (t2 & E2 & Sh2 & NB2).
  { eapply Forall_impl; [|now apply write_cbs_fine]. intros c Hc. apply (Hc PostWrite). }
  rewrite E2. cbn [andthen]. rewrite call_fine by apply Fh. cbn [andthen].
  match goal with |- context [fields_post PostWrite 0 _ v ?x] =>
    destruct (fields_post_write_runs (cr_fields r) 0 v x Ff G) as (t3 & it' & E3 & Sh3 & NB3 & St) end.
  rewrite E3. do 2 eexists. split; [reflexivity|]. split; [|split].
  - unfold post_write_order. rewrite map_app. cbn [app map shape i_el]. rewrite Sh2, Sh3, El. reflexivity.
  - apply no_bus_app; [exact NB2|]. apply (no_bus_app [_]); [now split|exact NB3].
  - rewrite St. cbn [i_st i_val i_el]. f_equal. rewrite El.
    rewrite through_app; [reflexivity|].
    intros e c H. unfold cb_codes in H. apply in_map_iff in H as (c0 & H & Hin). injection H as <- <-.
    assert (Fw := write_cbs_fine r Fi). rewrite Forall_forall in Fw. apply (Fw c0 Hin PostWrite).
Qed.

(** [write] in terms of its stages *)
Section Bus.
Context (m : via) (auto : bool) (bus_w : Z -> option status).
Definition predict_w (r : creg) (v : Z) : list cfield * (list ev * outc unit) :=
  if auto then reg_do_predict 0 (cr_fields r) v PWrite m else (cr_fields r, ([], Ok tt)).
Lemma write_eq : forall r0 v,
  write m auto bus_w r0 v =
  match pre_w (setv v r0) (masked v r0) with
  | (t, Exc e) => WRes (setv v r0) t (Exc e) 0
  | (t, Ok it) =>
      if negb (is_ok (i_st it)) then WRes (setv v r0) t (Ok (i_st it)) 2
      else match bus_w (i_val it) with
           | None => WRes (setv v r0) (t ++ [BusW (i_val it)]) (Exc BusExc) 0
           | Some st =>
               let '(fs, (tp, op)) := predict_w (setv v r0) (i_val it) in
               let r := with_cfields (setv v r0) fs in
               match op with
               | Exc e => WRes r (t ++ [BusW (i_val it)] ++ tp) (Exc e) 0
               | Ok _ =>
                   match post_w r (i_val it) (set_st it st) with
                   | (t2, Exc e) => WRes r ((t ++ [BusW (i_val it)] ++ tp) ++ t2) (Exc e) 0
                   | (t2, Ok it') => WRes r ((t ++ [BusW (i_val it)] ++ tp) ++ t2) (Ok (i_st it')) 1
                   end
               end
           end
  end.
Proof. reflexivity. Qed.
End Bus.

Lemma predict_alikes : forall m auto r v, alikes (cr_fields r) (fst (predict_w m auto r v)).
Proof. intros. unfold predict_w. destruct auto; [apply reg_do_predict_alike|apply alikes_refl]. Qed.

(** predictions whose callbacks are fine *)
Lemma field_predict_fine : forall i f v k m, Forall pp_fine (cf_cbs f) ->
  snd (field_predict i f v k m) =
  ((if has_pp k (cf f) m then told i (cf_cbs f) (mirrored (cf f)) (raw_predicted k (cf f) v m) else []), Ok tt).
Proof.
  intros i f v k m F. unfold field_predict. destruct (has_pp k (cf f) m) eqn:E.
  - now rewrite post_predict_fine.
  - destruct k; reflexivity.
Qed.
Lemma field_predict_cf : forall i f v k m be, Forall pp_fine (cf_cbs f) -> k <> PDirect -> Z.land 1 be <> 0 ->
  exists ok, do_predict false (cf f) v k FrontOrPredict m be true = Some (cf (fst (field_predict i f v k m)), ok).
Proof.
  intros i f v k m be F K B. exists true. unfold do_predict. rewrite (proj2 (Z.eqb_neq _ _) B).
  unfold field_predict. destruct k; [congruence| |].
  - cbn [has_pp]. rewrite post_predict_fine by assumption. reflexivity.
  - unfold has_pp, raw_predicted. destruct (get_access (cf f) m); cbn [is_in in_dec policy_eq_dec];
      unfold is_in; cbn; try rewrite post_predict_fine by assumption; try reflexivity.
Qed.
Lemma predicted_shapes : forall i l p v, map shape (told i l p v) = map (fun c => SPredicted (c_id c) i) l.
Proof. intros. unfold told. rewrite map_map. reflexivity. Qed.
Lemma reg_do_predict_fine : forall fs i v k m, Forall (fun f => Forall pp_fine (cf_cbs f)) fs ->
  exists t, snd (reg_do_predict i fs v k m) = (t, Ok tt) /\
   map shape t = flat_map (fun x : nat * cfield =>
      if has_pp k (cf (snd x)) m then map (fun c => SPredicted (c_id c) (fst x)) (cf_cbs (snd x)) else []) (number i fs).
Proof.
  induction fs as [|f fs IH]; intros i v k m F; [now exists []|]. inversion F as [|? ? F1 F2]; subst. cbn [reg_do_predict].
  assert (E := field_predict_fine i f (slice v (cf f)) k m F1).
  destruct (field_predict i f (slice v (cf f)) k m) as [f' [t o]]. cbn [snd] in E. injection E as -> ->.
  destruct (IH (S i) v k m F2) as (t2 & E2 & Sh2).
  destruct (reg_do_predict (S i) fs v k m) as [fs' [t3 o3]]. cbn [snd] in *. injection E2 as -> ->.
  eexists. split; [reflexivity|]. rewrite map_app. cbn [number flat_map fst snd]. rewrite Sh2. f_equal.
  destruct (has_pp k (cf f) m); [apply predicted_shapes|reflexivity].
Qed.

(** ** Modes *)
Section Modes.
Context (b : bool).
Definition mfield (f : cfield) : cfield := CField (cf f) (cf_hook f) (map (mode b) (cf_cbs f)).
Lemma call_cbs_mode : forall aw m st l it, call_cbs aw m st (map (mode b) l) it = call_cbs aw m st l it.
Proof.
  induction l as [|c l IH]; intros it; [reflexivity|]. cbn [map call_cbs mode c_id c_code].
  unfold andthen. destruct (call _ _ _ _ _) as [t [it'|e]]; [|reflexivity]. now rewrite IH.
Qed.
Lemma fields_pre_write_mode : forall fs i v it, fields_pre_write i (map mfield fs) v it = fields_pre_write i fs v it.
Proof.
  induction fs as [|f fs IH]; intros i v it; [reflexivity|]. cbn [map fields_pre_write mfield cf cf_hook cf_cbs].
  unfold andthen. destruct (call _ _ _ _ _) as [t [it'|e]]; [|reflexivity]. rewrite call_cbs_mode.
  destruct (call_cbs _ _ _ _ _) as [t2 [it2|e]]; [|reflexivity]. now rewrite IH.
Qed.
Lemma fields_pre_read_mode : forall fs i it, fields_pre_read i (map mfield fs) it = fields_pre_read i fs it.
Proof.
  induction fs as [|f fs IH]; intros i it; [reflexivity|]. cbn [map fields_pre_read mfield cf cf_hook cf_cbs].
  unfold andthen. destruct (call _ _ _ _ _) as [t [it'|e]]; [|reflexivity]. rewrite call_cbs_mode.
  destruct (call_cbs _ _ _ _ _) as [t2 [it2|e]]; [|reflexivity]. now rewrite IH.
Qed.
Lemma fields_post_mode : forall m fs i v it, fields_post m i (map mfield fs) v it = fields_post m i fs v it.
Proof.
  induction fs as [|f fs IH]; intros i v it; [reflexivity|]. cbn [map fields_post mfield cf cf_hook cf_cbs].
  unfold andthen. rewrite call_cbs_mode. destruct (call_cbs _ _ _ _ _) as [t [it'|e]]; [|reflexivity].
  destruct (call _ _ _ _ _) as [t2 [it2|e]]; [|reflexivity]. now rewrite IH.
Qed.
Lemma post_predict_mode : forall i l p v, post_predict i (map (mode b) l) p v = post_predict i l p v.
Proof.
  induction l as [|c l IH]; intros p v; [reflexivity|]. cbn [map post_predict mode c_id c_pp].
  destruct (c_pp c); [|reflexivity]. unfold andthen. destruct (b0 p v); [|reflexivity]. now rewrite IH.
Qed.
Lemma field_predict_mode : forall i f v k m,
  field_predict i (mfield f) v k m = (mfield (fst (field_predict i f v k m)), snd (field_predict i f v k m)).
Proof.
  intros i f v k m. unfold field_predict. cbn [mfield cf cf_hook cf_cbs]. rewrite post_predict_mode.
  destruct (has_pp k (cf f) m); [destruct (post_predict _ _ _ _) as [t [u|e]]; reflexivity|destruct k; reflexivity].
Qed.
Lemma reg_do_predict_mode : forall fs i v k m,
  reg_do_predict i (map mfield fs) v k m = (map mfield (fst (reg_do_predict i fs v k m)), snd (reg_do_predict i fs v k m)).
Proof.
  induction fs as [|f fs IH]; intros i v k m; [reflexivity|]. cbn [map reg_do_predict].
  rewrite field_predict_mode. cbn [mfield cf]. destruct (field_predict i f (slice v (cf f)) k m) as [f' [t [u|e]]]; [|reflexivity].
  cbn [fst snd]. rewrite IH. destruct (reg_do_predict (S i) fs v k m) as [fs' [t2 o]]. reflexivity.
Qed.
Lemma modes_eq : forall r, modes b r = CReg (cr_bits r) (cr_hook r) (map (mode b) (cr_cbs r)) (map mfield (cr_fields r)).
Proof. reflexivity. Qed.
Lemma last_cbs_mode : forall r, last_cbs (modes b r) = map (mode b) (last_cbs r).
Proof.
  intros r. unfold last_cbs. rewrite modes_eq. cbn [cr_fields cr_cbs]. rewrite <- map_rev. destruct (rev (cr_fields r)); reflexivity.
Qed.
Lemma setv_mode : forall v r, setv v (modes b r) = modes b (setv v r).
Proof. intros v r. unfold setv, modes, with_cfields. cbn. f_equal. rewrite !map_map. reflexivity. Qed.
Lemma with_cfields_mode : forall r fs, with_cfields (modes b r) (map mfield fs) = modes b (with_cfields r fs).
Proof. reflexivity. Qed.
Lemma write_mode : forall m auto bus_w r v,
  write m auto bus_w (modes b r) v =
  let x := write m auto bus_w r v in WRes (modes b (w_reg x)) (w_tr x) (w_out x) (w_releases x).
Proof.
  intros. rewrite !write_eq. rewrite setv_mode. change (masked v (modes b r)) with (masked v r).
  set (r1 := setv v r).
  assert (E : pre_w (modes b r1) (masked v r) = pre_w r1 (masked v r)).
  { unfold pre_w. rewrite last_cbs_mode. change (cr_fields (modes b r1)) with (map mfield (cr_fields r1)).
    rewrite fields_pre_write_mode. unfold andthen. destruct (fields_pre_write _ _ _ _) as [t [[x it]|e]]; [|reflexivity].
    change (cr_hook (modes b r1)) with (cr_hook r1). destruct (call _ _ _ _ _) as [t2 [it2|e]]; [|reflexivity].
    now rewrite call_cbs_mode. }
  rewrite E. destruct (pre_w r1 (masked v r)) as [t [it|e]]; [|reflexivity].
  destruct (is_ok (i_st it)); cbn [negb]; [|reflexivity].
  destruct (bus_w (i_val it)) as [st|]; [|reflexivity].
  assert (P : predict_w m auto (modes b r1) (i_val it) = (map mfield (fst (predict_w m auto r1 (i_val it))), snd (predict_w m auto r1 (i_val it)))).
  { unfold predict_w. change (cr_fields (modes b r1)) with (map mfield (cr_fields r1)). destruct auto; [apply reg_do_predict_mode|reflexivity]. }
  rewrite P. destruct (predict_w m auto r1 (i_val it)) as [fs [tp [u|e]]]; cbn [fst snd]; [|reflexivity].
  rewrite with_cfields_mode. set (r2 := with_cfields r1 fs).
  assert (Q : post_w (modes b r2) (i_val it) (set_st it st) = post_w r2 (i_val it) (set_st it st)).
  { unfold post_w. rewrite last_cbs_mode, call_cbs_mode. unfold andthen. destruct (call_cbs _ _ _ _ _) as [t2 [it2|e]]; [|reflexivity].
    change (cr_hook (modes b r2)) with (cr_hook r2). destruct (call _ _ _ _ _) as [t3 [it3|e]]; [|reflexivity].
    change (cr_fields (modes b r2)) with (map mfield (cr_fields r2)). now rewrite fields_post_mode. }
  rewrite Q. destruct (post_w r2 (i_val it) (set_st it st)) as [t2 [it2|e]]; reflexivity.
Qed.
End Modes.

(** ** Whole reads *)
Definition pre_r (r : creg) : list ev * outc item :=
  andthen (fields_pre_read 0 (cr_fields r) (Item 0 IS_OK EReg)) (fun it =>
  andthen (call true WReg PreRead (cr_hook r PreRead) (set_el it EReg)) (fun it =>
    call_cbs false PreRead None (cr_cbs r) it)).
Definition post_r (r : creg) (v : Z) (it : item) : list ev * outc item :=
  andthen (call_cbs false PostRead None (cr_cbs r) it) (fun it' =>
  andthen (call true WReg PostRead (cr_hook r PostRead) it') (fun it' =>
  fields_post PostRead 0 (cr_fields r) v it')).
Definition predict_r (m : via) (auto : bool) (r : creg) (v : Z) : list cfield * (list ev * outc unit) :=
  if auto then reg_do_predict 0 (cr_fields r) v PRead m else (cr_fields r, ([], Ok tt)).
Lemma read_eq : forall m auto bus_r r,
  read m auto bus_r r =
  match pre_r r with
  | (t, Exc e) => RRes r t (Exc e) 0
  | (t, Ok it) =>
      if negb (is_ok (i_st it)) then RRes r t (Ok (i_val it, i_st it)) 1
      else match bus_r with
           | None => RRes r (t ++ [BusR]) (Exc BusExc) 0
           | Some (v, st) =>
               let '(fs, (tp, op)) := predict_r m auto r v in
               let r := with_cfields r fs in
               match op with
               | Exc e => RRes r (t ++ [BusR] ++ tp) (Exc e) 0
               | Ok _ =>
                   match post_r r v (Item v st EReg) with
                   | (t2, Exc e) => RRes r ((t ++ [BusR] ++ tp) ++ t2) (Exc e) 0
                   | (t2, Ok it') => RRes r ((t ++ [BusR] ++ tp) ++ t2) (Ok (v, i_st it')) 1
                   end
               end
           end
  end.
Proof. reflexivity. Qed.
Lemma read_mode : forall b m auto bus_r r,
  read m auto bus_r (modes b r) =
  let x := read m auto bus_r r in RRes (modes b (r_reg x)) (r_tr x) (r_out x) (r_releases x).
Proof.
  intros. rewrite !read_eq.
  assert (E : pre_r (modes b r) = pre_r r).
  { unfold pre_r. change (cr_fields (modes b r)) with (map (mfield b) (cr_fields r)).
    rewrite fields_pre_read_mode. unfold andthen. destruct (fields_pre_read _ _ _) as [t [it|e]]; [|reflexivity].
    change (cr_hook (modes b r)) with (cr_hook r). destruct (call _ _ _ _ _) as [t2 [it2|e]]; [|reflexivity].
    change (cr_cbs (modes b r)) with (map (mode b) (cr_cbs r)). now rewrite call_cbs_mode. }
  rewrite E. destruct (pre_r r) as [t [it|e]]; [|reflexivity].
  destruct (is_ok (i_st it)); cbn [negb]; [|reflexivity].
  destruct bus_r as [[v st]|]; [|reflexivity].
  assert (P : predict_r m auto (modes b r) v = (map (mfield b) (fst (predict_r m auto r v)), snd (predict_r m auto r v))).
  { unfold predict_r. change (cr_fields (modes b r)) with (map (mfield b) (cr_fields r)). destruct auto; [apply reg_do_predict_mode|reflexivity]. }
  rewrite P. destruct (predict_r m auto r v) as [fs [tp [u|e]]]; cbn [fst snd]; [|reflexivity].
  rewrite with_cfields_mode. set (r2 := with_cfields r fs).
  assert (Q : post_r (modes b r2) v (Item v st EReg) = post_r r2 v (Item v st EReg)).
  { unfold post_r. change (cr_cbs (modes b r2)) with (map (mode b) (cr_cbs r2)). rewrite call_cbs_mode.
    unfold andthen. destruct (call_cbs _ _ _ _ _) as [t2 [it2|e]]; [|reflexivity].
    change (cr_hook (modes b r2)) with (cr_hook r2). destruct (call _ _ _ _ _) as [t3 [it3|e]]; [|reflexivity].
    change (cr_fields (modes b r2)) with (map (mfield b) (cr_fields r2)). now rewrite fields_post_mode. }
  rewrite Q. destruct (post_r r2 v (Item v st EReg)) as [t2 [it2|e]]; reflexivity.
Qed.

Lemma fields_pre_read_value : forall fs i it, fine_fields fs ->
  exists t it', fields_pre_read i fs it = (t, Ok it') /\
    (i_val it', i_st it') = through (flat_map (fun x : nat * cfield =>
      (EFld (fst x), cf_hook (snd x) PreRead) :: cb_codes PreRead (EFld (fst x)) (cf_cbs (snd x))) (number i fs))
      (i_val it) (i_st it).
Proof.
  induction fs as [|f fs IH]; intros i it F.
  - exists [], it. now split.
  - inversion F as [|? ? [Fh Fc] F2]; subst. cbn [fields_pre_read].
    rewrite call_fine by apply Fh. cbn [andthen set_el i_el i_val i_st].
    assert (Fc' : Forall (fun c => fine true (c_code c PreRead)) (cf_cbs f)).
    { eapply Forall_impl; [|exact Fc]. intros c Hc. apply (Hc PreRead). }
    match goal with |- context [call_cbs true PreRead None (cf_cbs f) ?x] =>
      destruct (call_cbs_run true PreRead (cf_cbs f) x Fc') as (t & E & Sh & NB) end.
    rewrite E. cbn [andthen].
    match goal with |- context [fields_pre_read (S i) fs ?x] => destruct (IH (S i) x F2) as (t2 & it' & E2 & V2) end.
    rewrite E2. do 2 eexists. split; [reflexivity|]. rewrite V2. cbn [i_val i_st i_el number flat_map fst snd].
    change ((EFld i, cf_hook f PreRead) :: cb_codes PreRead (EFld i) (cf_cbs f))
      with ([(EFld i, cf_hook f PreRead)] ++ cb_codes PreRead (EFld i) (cf_cbs f)).
    rewrite <- app_assoc. rewrite (through_app [_]) by (intros e0 c0 [H|[]]; injection H as <- <-; apply Fh).
    rewrite through_app; [reflexivity|].
    intros e c H. unfold cb_codes in H. apply in_map_iff in H as (c0 & H & Hin). injection H as <- <-.
    rewrite Forall_forall in Fc'. apply (Fc' c0 Hin).
Qed.
Lemma fine_fields_codes : forall fs m i e c, fine_fields fs -> (m = PreRead) ->
  In (e, c) (flat_map (fun x : nat * cfield =>
      (EFld (fst x), cf_hook (snd x) m) :: cb_codes m (EFld (fst x)) (cf_cbs (snd x))) (number i fs)) ->
  forall it, eff c it <> None.
Proof.
  intros fs m i e c F Em H it. apply in_flat_map in H as ([j f] & Hj & H). apply in_number in Hj.
  unfold fine_fields in F. rewrite Forall_forall in F. destruct (F f Hj) as [Fh Fc]. cbn [fst snd] in H.
  destruct H as [H|H]; [injection H as <- <-; apply Fh|].
  unfold cb_codes in H. apply in_map_iff in H as (c0 & H & Hin). injection H as <- <-.
  rewrite Forall_forall in Fc. apply (Fc c0 Hin m).
Qed.
Lemma pre_r_runs : forall r, fine_calls r ->
  exists t it, pre_r r = (t, Ok it) /\ map shape t = pre_read_order r /\ no_bus t /\
    (i_val it, i_st it) = through (pre_read_codes r) 0 IS_OK.
Proof.
  intros r (Fh & Fc & Ff). unfold pre_r.
  destruct (fields_pre_read_runs (cr_fields r) 0 (Item 0 IS_OK EReg) Ff) as (t & it & E & Sh & NB).
  destruct (fields_pre_read_value (cr_fields r) 0 (Item 0 IS_OK EReg) Ff) as (t' & it' & E' & V).
  rewrite E in E'. injection E' as <- <-. rewrite E. cbn [andthen].
  rewrite call_fine by apply Fh. cbn [andthen].
  rewrite call_cbs_lost by (eapply Forall_impl; [|exact Fc]; intros c Hc; apply (Hc PreRead)).
  do 2 eexists. split; [reflexivity|]. split.
  - rewrite app_nil_r, map_app, Sh. reflexivity.
  - split; [rewrite app_nil_r; apply no_bus_app; [exact NB|now split]|].
    cbn [i_val i_st i_el set_el]. unfold pre_read_codes.
    rewrite through_app by (intros e c H; eapply fine_fields_codes; eauto).
    cbn [i_val i_st] in V. rewrite <- V. cbn [fst snd]. now rewrite <- surjective_pairing.
Qed.
Lemma post_r_runs : forall r v st, fine_calls r -> geom (cr_fields r) ->
  exists t it', post_r r v (Item v st EReg) = (t, Ok it') /\ map shape t = post_read_order r /\ no_bus t /\
    i_st it' = post_read_status (number 0 (cr_fields r)) v (snd (through (post_codes_reg r) v st)).
Proof.
  intros r v st Fi G. assert (Fi' := Fi). destruct Fi' as (Fh & Fc & Ff). unfold post_r.
  assert (Fc' : Forall (fun c => fine false (c_code c PostRead)) (cr_cbs r)).
  { eapply Forall_impl; [|exact Fc]. intros c Hc. apply (Hc PostRead). }
  destruct (call_cbs_run false PostRead (cr_cbs r) (Item v st EReg) Fc') as (t2 & E2 & Sh2 & NB2).
  rewrite E2. cbn [andthen]. rewrite call_fine by apply Fh. cbn [andthen].
  match goal with |- context [fields_post PostRead 0 _ v ?x] =>
    destruct (fields_post_read_runs (cr_fields r) 0 v x Ff G) as (t3 & it' & E3 & Sh3 & NB3 & St) end.
  rewrite E3. do 2 eexists. split; [reflexivity|]. split.
  - unfold post_read_order. rewrite map_app. cbn [app map shape i_el]. rewrite Sh2, Sh3. reflexivity.
  - split; [apply no_bus_app; [exact NB2|]; apply (no_bus_app [_]); [now split|exact NB3]|].
    rewrite St. cbn [i_st i_val i_el]. f_equal. unfold post_codes_reg.
    rewrite through_app; [reflexivity|].
    intros e c H. unfold cb_codes in H. apply in_map_iff in H as (c0 & H & Hin). injection H as <- <-.
    rewrite Forall_forall in Fc'. apply (Fc' c0 Hin).
Qed.

(** ** Predictions whose callbacks lack post_predict *)
Lemma post_predict_missing : forall i c1 c c2 prev v, Forall pp_fine c1 -> c_pp c = None ->
  post_predict i (c1 ++ c :: c2) prev v = (told i c1 prev v, Exc AttrErr).
Proof.
  induction c1 as [|d c1 IH]; intros c c2 prev v F N; cbn [app post_predict].
  - now rewrite N.
  - inversion F as [|? ? (g & E & G) F2]; subst. rewrite E, G. cbn [andthen]. now rewrite IH.
Qed.
Lemma reg_do_predict_missing : forall k m v a i f b c1 c c2,
  Forall (fun f => Forall pp_fine (cf_cbs f)) a -> has_pp k (cf f) m = true ->
  cf_cbs f = c1 ++ c :: c2 -> Forall pp_fine c1 -> c_pp c = None ->
  exists t, snd (reg_do_predict i (a ++ f :: b) v k m) = (t, Exc AttrErr) /\
    map shape t = flat_map (fun x : nat * cfield =>
      if has_pp k (cf (snd x)) m then map (fun c => SPredicted (c_id c) (fst x)) (cf_cbs (snd x)) else []) (number i a)
      ++ map (fun c => SPredicted (c_id c) (i + length a)%nat) c1 /\
    map (fun f => mirrored (cf f)) (skipn (length a) (fst (reg_do_predict i (a ++ f :: b) v k m)))
    = map (fun f => mirrored (cf f)) (f :: b).
Proof.
  intros k m v. induction a as [|g a IH]; intros i f b c1 c c2 Fa H Ec F1 N; cbn [app reg_do_predict].
  - unfold field_predict. rewrite H, Ec, post_predict_missing by assumption. cbn [fst snd length skipn].
    eexists. split; [reflexivity|]. split; [cbn [number flat_map app]; rewrite predicted_shapes, Nat.add_0_r; reflexivity|].
    destruct k; reflexivity.
  - inversion Fa as [|? ? Fg Fa2]; subst.
    assert (E := field_predict_fine i g (slice v (cf g)) k m Fg).
    destruct (field_predict i g (slice v (cf g)) k m) as [g' [t o]]. cbn [snd] in E. injection E as -> ->.
    destruct (IH (S i) f b c1 c c2 Fa2 H Ec F1 N) as (t2 & E2 & Sh2 & M2).
    destruct (reg_do_predict (S i) (a ++ f :: b) v k m) as [fs' [t3 o3]]. cbn [fst snd] in *. injection E2 as -> ->.
    eexists. split; [reflexivity|]. split.
    + rewrite map_app. cbn [number flat_map fst snd length]. rewrite Sh2, <- app_assoc. f_equal.
      * destruct (has_pp k (cf g) m); [apply predicted_shapes|reflexivity].
      * f_equal. apply map_ext. intros d. f_equal. lia.
    + exact M2.
Qed.

(** ** What the callbacks are told *)
Definition fits_f (f : field) : Prop := 0 < size f /\ 0 <= mirrored f < 2 ^ size f.
Lemma raw_in_range : forall k f v m, fits_f f ->
  Z.land (raw_predicted k f v m) (get_mask f) = raw_predicted k f v m.
Proof.
  intros k f v m [Hs Hm].
  assert (Em : get_mask f = Z.ones (size f)) by apply RegFieldProofs.mask_ones. 
  assert (V : RegFieldSpec.fits_in (size f) (Z.land v (Z.ones (size f)))) by (apply RegFieldProofs.fits_land_mask; lia).
  assert (M : RegFieldSpec.fits_in (size f) (mirrored f)) by exact Hm.
  rewrite Em. apply RegFieldProofs.land_mask_id; [lia|]. unfold raw_predicted. rewrite Em.
  assert (S0 : 0 <= size f) by lia.
  destruct k; [exact V| |].
  - unfold XpredictX. rewrite Em.
    destruct (get_access f m); auto using RegFieldProofs.fits_land_mask, RegFieldProofs.fits_mask, RegFieldProofs.fits_0, RegFieldProofs.fits_land, RegFieldProofs.fits_lor, RegFieldProofs.fits_lxor;
    destruct (written f); auto.
  - destruct (is_in _ _); [now apply RegFieldProofs.fits_0|]. destruct (is_in _ _); [now apply RegFieldProofs.fits_mask|exact V].
Qed.
Lemma reg_do_predict_told : forall fs i v k m, k <> PDirect ->
  Forall (fun f => Forall pp_fine (cf_cbs f)) fs -> Forall (fun f => fits_f (cf f)) fs ->
  fst (snd (reg_do_predict i fs v k m)) =
  flat_map (fun x : nat * (cfield * cfield) =>
      let '(i, (f, g)) := x in
      if has_pp k (cf f) m then map (fun c => Predicted (c_id c) i (mirrored (cf f)) (mirrored (cf g))) (cf_cbs f) else [])
    (number i (combine fs (fst (reg_do_predict i fs v k m)))).
Proof.
  induction fs as [|f fs IH]; intros i v k m K F R; [reflexivity|]. inversion F as [|? ? F1 F2]; subst. inversion R as [|? ? R1 R2]; subst.
  cbn [reg_do_predict]. assert (E := field_predict_fine i f (slice v (cf f)) k m F1).
  assert (Mi : has_pp k (cf f) m = true ->
     mirrored (cf (fst (field_predict i f (slice v (cf f)) k m))) = raw_predicted k (cf f) (slice v (cf f)) m).
  { intros H. unfold field_predict. rewrite H, post_predict_fine by assumption. cbn. now apply raw_in_range. }
  destruct (field_predict i f (slice v (cf f)) k m) as [f' [t o]]. cbn [fst snd] in *. injection E as -> ->.
  specialize (IH (S i) v k m K F2 R2).
  destruct (reg_do_predict (S i) fs v k m) as [fs' [t3 o3]]. cbn [fst snd combine number flat_map] in *.
  rewrite IH. f_equal. destruct (has_pp k (cf f) m); [|reflexivity]. now rewrite Mi.
Qed.
Lemma reg_do_predict_plain : forall fs i v k m, k <> PDirect -> Forall (fun f => 0 <= lsb (cf f)) fs ->
  Forall (fun f => Forall pp_fine (cf_cbs f)) fs ->
  map cf (fst (reg_do_predict i fs v k m)) = fst (predict_fields false (map cf fs) v k FrontOrPredict m (-1) true).
Proof.
  induction fs as [|f fs IH]; intros i v k m K L F; [reflexivity|]. inversion F as [|? ? F1 F2]; subst. inversion L as [|? ? L1 L2]; subst.
  cbn [reg_do_predict map predict_fields].
  assert (E := field_predict_fine i f (slice v (cf f)) k m F1).
  destruct (field_predict_cf i f (slice v (cf f)) k m (Z.shiftr (-1) (Z.quot (lsb (cf f)) 8)) F1 K) as (ok & D).
  { assert (Q : 0 <= Z.quot (lsb (cf f)) 8) by (apply Z.quot_pos; lia). assert (B := RegProofs.be_all _ Q). now apply Z.eqb_neq. }
  destruct (field_predict i f (slice v (cf f)) k m) as [f' [t o]]. cbn [fst snd] in *. injection E as -> ->. rewrite D.
  assert (ok = true) as ->.
  { unfold do_predict in D. destruct (Z.land 1 _ =? 0); [discriminate|].
    destruct k; [congruence|injection D; congruence|].
    destruct (is_in _ _); [injection D; congruence|]. destruct (is_in _ _); [injection D; congruence|]. destruct (is_in _ _); injection D; congruence. }
  specialize (IH (S i) v k m K L2 F2).
  destruct (reg_do_predict (S i) fs v k m) as [fs' [t3 o3]]. destruct (predict_fields false (map cf fs) v k FrontOrPredict m (-1) true) as [a b].
  cbn [fst snd map] in *. now rewrite IH.
Qed.

(** ** Code that does nothing *)
Lemma through_nothing : forall l v s, (forall e c, In (e, c) l -> does_nothing c) -> through l v s = (v, s).
Proof.
  induction l as [|[e c] l IH]; intros v s H; [reflexivity|]. cbn. rewrite (H e c (or_introl eq_refl)). cbn.
  apply IH. intros; eapply H; right; eauto.
Qed.
Lemma outcomes_nothing : forall l e v s,
  (forall i f, In (i, f) l -> does_nothing (cf_hook f PreWrite) /\ (forall c, In c (cf_cbs f) -> does_nothing (c_code c PreWrite))) ->
  pre_outcomes e l v s = (map (fun x => part v (cf (snd x))) l, s).
Proof.
  induction l as [|[i f] l IH]; intros e v s H; [reflexivity|]. cbn [pre_outcomes map snd].
  destruct (H i f (or_introl eq_refl)) as [Hh Hc].
  rewrite through_nothing.
  - rewrite IH by (intros; eapply H; right; eauto). reflexivity.
  - intros e0 c [E|E]; [injection E as <- <-; exact Hh|]. unfold cb_codes in E. apply in_map_iff in E as (c0 & E & Hin).
    injection E as <- <-. auto.
Qed.
Lemma number_snd : forall A (l : list A) i, map snd (number i l) = l.
Proof. induction l as [|x l IH]; intros i; [reflexivity|]. cbn. now rewrite IH. Qed.
Lemma assembled_parts : forall v fs x, geom fs -> 0 <= v -> 
  assembled v fs (map (fun f => part v (cf f)) fs) x -> 0 <= x -> x = v.
Proof.
  intros v fs x G Hv [A1 A2] Hx. apply Z.bits_inj'. intros k K.
  destruct (existsb (fun f => (lsb (cf f) <=? k) && (k <? lsb (cf f) + size (cf f))) fs) eqn:E.
  - apply existsb_exists in E as (f & Hf & Hk). apply andb_true_iff in Hk as [K1 K2]. apply Z.leb_le in K1. apply Z.ltb_lt in K2.
    apply In_nth_error in Hf as [n Hn].
    assert (Hp : nth_error (map (fun f => part v (cf f)) fs) n = Some (part v (cf f))) by now rewrite nth_error_map, Hn.
    specialize (A1 n f (part v (cf f)) Hn Hp (k - lsb (cf f)) ltac:(lia)).
    replace (lsb (cf f) + (k - lsb (cf f))) with k in A1 by lia. rewrite A1.
    assert (Gf : 0 < size (cf f) /\ 0 <= lsb (cf f)).
    { unfold geom in G. rewrite Forall_forall in G. apply G. eapply nth_error_In; eauto. }
    rewrite part_bits by lia. replace (k - lsb (cf f) <? size (cf f)) with true by (symmetry; apply Z.ltb_lt; lia).
    cbn [andb]. f_equal. lia.
  - apply A2; [assumption|]. intros f Hf If. unfold in_field in If.
    assert (X : existsb (fun f => (lsb (cf f) <=? k) && (k <? lsb (cf f) + size (cf f))) fs = true).
    { apply existsb_exists. exists f. split; [assumption|]. apply andb_true_iff. rewrite Z.leb_le, Z.ltb_lt. lia. }
    congruence.
Qed.
