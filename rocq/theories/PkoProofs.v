From Coq Require Import ZArith List Bool Arith Lia ZifyBool ZifyNat.
From Verif Require Import Prelude PyList PackerModel PackerSpec PackerProofs PkoModel PkoSpec.
Import ListNotations.
Local Open Scope nat_scope.

Definition words (l : list Z) : list (Z * Z) := map (fun z => (32%Z, z)) l.
Lemma words_app a b : words (a ++ b) = words a ++ words b.
Proof. apply map_app. Qed.

(** ** cycle_check *)
Lemma mem_in o l : mem o l = true <-> In o l.
Proof. unfold mem. rewrite existsb_exists. split; [intros (x & H & E); apply Nat.eqb_eq in E; now subst|intros H; exists o; split; auto; apply Nat.eqb_refl]. Qed.
Lemma mem_out o l : mem o l = false <-> ~ In o l.
Proof. rewrite <- mem_in. now destruct (mem o l). Qed.
Lemma del_out o l : ~ In o l -> del o l = l.
Proof.
  unfold del. induction l as [|x l IH]; intros H; cbn; auto. destruct (Nat.eqb o x) eqn:E; cbn.
  - apply Nat.eqb_eq in E. subst. exfalso. apply H. now left.
  - f_equal. apply IH. intros HI. apply H. now right.
Qed.
Lemma del_cons o l : ~ In o l -> del o (o :: l) = l.
Proof. intros H. unfold del. cbn. rewrite Nat.eqb_refl. cbn. now apply del_out. Qed.

Lemma below_trans h a b c : below h a b -> below h b c -> below h a c.
Proof. induction 1 as [a f b H1 H2|a f b d H1 H2 H3 IH]; intros H; [eapply b_more; eauto|eapply b_more; eauto]. Qed.

(** objects of a walk are not below themselves *)
Lemma walk_acyclic h o fs L : walk h o fs L -> forall f c, In (f, true) fs -> att (h o) f = VObj c -> ~ below h c c.
Proof.
  induction 1 as [o|o f fs L W IH|o f z fs L E W IH|o f c fs L1 L2 E W1 IH1 W2 IH2]; intros g d HI HA.
  - destruct HI.
  - destruct HI as [HI|HI]; [discriminate|eauto].
  - destruct HI as [HI|HI]; [injection HI as ->; congruence|eauto].
  - destruct HI as [HI|HI]; [|eauto]. injection HI as ->. assert (d = c) by congruence. subst d.
    intros HB. inversion HB as [f' ? H1 H2|f' c' ? H1 H2 H3]; subst.
    + exact (IH1 f' c H1 H2 HB).
    + apply (IH1 f' c' H1 H2). eapply below_trans; [exact H3|]. eapply b_one; eauto.
Qed.

Definition free (h : heap) (o : nat) (fs : list (nat * bool)) (cyc : list nat) : Prop :=
  forall a f c, In a cyc -> In (f, true) fs -> att (h o) f = VObj c -> a <> c /\ ~ below h c a.
Lemma free_tail h o x fs cyc : free h o (x :: fs) cyc -> free h o fs cyc.
Proof. intros H a f c H1 H2. apply H; auto. now right. Qed.
Lemma free_child h o f c fs cyc : free h o ((f, true) :: fs) cyc -> att (h o) f = VObj c -> ~ below h c c ->
  ~ In c cyc /\ free h c (flds (h c)) (c :: cyc).
Proof.
  intros HF HA HN. split.
  - intros HI. destruct (HF c f c HI (or_introl eq_refl) HA) as [H _]. now apply H.
  - intros a g d [<-|HI] HG HD.
    + split; [intros <-; apply HN; eapply b_one; eauto|intros HB; apply HN; eapply b_more; eauto].
    + destruct (HF a f c HI (or_introl eq_refl) HA) as [H1 H2]. split.
      * intros ->. apply H2. eapply b_one; eauto.
      * intros HB. apply H2. eapply b_more; eauto.
Qed.

(** ** Packing *)
Definition same_out (r : res pk) (cyc : list nat) (x : out pk) : Prop :=
  match r with
  | Ok q => x = Done q cyc
  | Raise => exists path, x = Raised (path ++ cyc)
  | Diverge => x = Forever
  end.
Lemma pack_walk h o fs L : walk h o fs L -> exists n, forall fuel p cyc, n <= fuel -> free h o fs cyc ->
  same_out (pack_fields p (words (values h L))) cyc (pack_each (pack_object false fuel h) h o fs p cyc).
Proof.
  induction 1 as [o|o f fs L W [n IH]|o f z fs L E W [n IH]|o f c fs L1 L2 E W1 [n1 IH1] W2 [n2 IH2]].
  - exists 0. intros. reflexivity.
  - exists n. intros fuel p cyc Hf HF. cbn [pack_each]. apply IH; auto. eapply free_tail; eauto.
  - exists n. intros fuel p cyc Hf HF. cbn [pack_each values map words pack_fields]. rewrite E.
    unfold int_at at 1. cbn [fst snd]. rewrite E.
    unfold int_bits. destruct (pack_field_int p z 32) as [p1| |] eqn:EP; cbn [bind same_out]; auto.
    + apply IH; auto. eapply free_tail; eauto.
    + now exists [].
  - exists (Nat.max (S n1) n2). intros [|fuel] p cyc Hf HF; [lia|].
    assert (HN : ~ below h c c) by (eapply walk_acyclic; [econstructor; eauto|now left|auto]).
    destruct (free_child _ _ _ _ _ _ HF E HN) as [HC HF'].
    specialize (IH1 fuel p (c :: cyc) ltac:(lia) HF'). cbn [pack_each]. rewrite E.
    assert (EO : pack_object false (S fuel) h p cyc c =
      match pack_each (pack_object false fuel h) h c (flds (h c)) p (c :: cyc) with Done p1 cyc1 => Done p1 (del c cyc1) | e => e end).
    { cbn [pack_object]. now rewrite (proj2 (mem_out c cyc) HC). }
    rewrite EO.
    unfold values. rewrite map_app, words_app, pack_fields_app. fold (values h L1) (values h L2).
    destruct (pack_fields p (words (values h L1))) as [p1| |]; cbn [bind same_out] in *.
    + rewrite IH1. rewrite del_cons by auto. apply IH2; [lia|]. eapply free_tail; eauto.
    + destruct IH1 as [path ->]. exists (path ++ [c]). now rewrite <- app_assoc.
    + now rewrite IH1.
Qed.

(** ** Unpacking *)
Definition sim (h h0 : heap) : Prop :=
  forall o, flds (h o) = flds (h0 o) /\
    forall f, att (h o) f = att (h0 o) f \/ exists a b, att (h o) f = VInt a /\ att (h0 o) f = VInt b.

Lemma set_flds h o f v o' : flds (set h o f v o') = flds (h o').
Proof. unfold set. destruct (Nat.eq_dec o' o) as [->|N]; [now rewrite upd_eq|now rewrite upd_neq by auto]. Qed.
Lemma set_att h o f v o' f' : att (set h o f v o') f' = if (Nat.eqb o o') && (Nat.eqb f f') then v else att (h o') f'.
Proof.
  unfold set. destruct (Nat.eq_dec o' o) as [->|N].
  - rewrite upd_eq, Nat.eqb_refl. cbn. destruct (Nat.eq_dec f' f) as [->|N].
    + now rewrite upd_eq, Nat.eqb_refl.
    + rewrite upd_neq by auto. apply Nat.eqb_neq in N. now rewrite Nat.eqb_sym, N.
  - rewrite upd_neq by auto. apply Nat.eqb_neq in N. now rewrite Nat.eqb_sym, N.
Qed.
Lemma heq_refl h : heq h h. Proof. now intros o. Qed.
Lemma heq_trans a b c : heq a b -> heq b c -> heq a c.
Proof. intros H1 H2 o. destruct (H1 o) as [A B], (H2 o) as [C D]. split; [congruence|]. intros f. now rewrite B, D. Qed.
Lemma heq_set h h' o f v : heq h h' -> heq (set h o f v) (set h' o f v).
Proof.
  intros H o'. destruct (H o') as [A B]. rewrite !set_flds. split; auto. intros f'. rewrite !set_att. destruct (_ && _); auto.
Qed.
Lemma heq_fill L : forall vs h h', heq h h' -> heq (fill h L vs) (fill h' L vs).
Proof. induction L as [|[o f] L IH]; intros [|v vs] h h' H; cbn [fill]; auto. apply IH. now apply heq_set. Qed.
Lemma heq_same h o f c : att (h o) f = VObj c -> heq (set h o f (VObj c)) h.
Proof.
  intros E o'. rewrite set_flds. split; auto. intros f'. rewrite set_att.
  destruct (Nat.eqb o o' && Nat.eqb f f') eqn:EQ; auto. apply andb_true_iff in EQ. destruct EQ as [A B].
  apply Nat.eqb_eq in A, B. now subst.
Qed.
Lemma sim_heq h h' h0 : heq h h' -> sim h' h0 -> sim h h0.
Proof. intros H1 H2 o. destruct (H1 o) as [A B], (H2 o) as [C D]. split; [congruence|]. intros f. rewrite B. apply D. Qed.
Lemma sim_set h h0 o f a v : sim h h0 -> att (h0 o) f = VInt a -> sim (set h o f (VInt v)) h0.
Proof.
  intros H E o'. destruct (H o') as [A B]. rewrite set_flds. split; auto. intros f'. rewrite set_att.
  destruct (Nat.eqb o o' && Nat.eqb f f') eqn:EQ; auto. apply andb_true_iff in EQ. destruct EQ as [C D].
  apply Nat.eqb_eq in C, D. subst. right. eauto.
Qed.
Lemma sim_obj h h0 o f c : sim h h0 -> att (h0 o) f = VObj c -> att (h o) f = VObj c.
Proof. intros H E. destruct (proj2 (H o) f) as [A|(a & b & A & B)]; congruence. Qed.
Lemma sim_int h h0 o f z : sim h h0 -> att (h0 o) f = VInt z -> exists a, att (h o) f = VInt a.
Proof. intros H E. destruct (proj2 (H o) f) as [A|(a & b & A & B)]; [exists z; congruence|eauto]. Qed.
Lemma fill_app L1 : forall vs1 L2 vs2 h, length L1 = length vs1 -> fill h (L1 ++ L2) (vs1 ++ vs2) = fill (fill h L1 vs1) L2 vs2.
Proof. induction L1 as [|[o f] L1 IH]; intros [|v vs1] L2 vs2 h H; try discriminate; cbn [app fill]; auto. Qed.

Lemma walk_ints h o fs L : walk h o fs L -> Forall (fun l => exists z, att (h (fst l)) (snd l) = VInt z) L.
Proof. induction 1; auto; [constructor; eauto|]. apply Forall_app. auto. Qed.
Lemma sim_fill h0 L : Forall (fun l => exists z, att (h0 (fst l)) (snd l) = VInt z) L ->
  forall vs h, sim h h0 -> sim (fill h L vs) h0.
Proof.
  induction 1 as [|[o f] L [z E] F IH]; intros [|v vs] h H; cbn [fill]; auto. apply IH. eapply sim_set; eauto.
Qed.

Lemma unpack_fields_app a : forall b p q vs, unpack_fields p (a ++ b) = Ok (q, vs) ->
  exists q1 v1 v2, unpack_fields p a = Ok (q1, v1) /\ unpack_fields q1 b = Ok (q, v2) /\ vs = v1 ++ v2 /\ length v1 = length a.
Proof.
  induction a as [|s a IH]; intros b p q vs H; cbn [app unpack_fields] in *.
  - exists p, [], vs. auto.
  - destruct (unpack_field_int p s) as [[p1 v]| |]; cbn [bind] in *; try discriminate.
    destruct (unpack_fields p1 (a ++ b)) as [[p2 w]| |] eqn:E; cbn [bind] in *; try discriminate.
    injection H as <- <-. destruct (IH _ _ _ _ E) as (q1 & v1 & v2 & E1 & E2 & -> & HL).
    exists q1, (v :: v1), v2. rewrite E1. cbn. auto.
Qed.

Section Un.
Context (decodes : list Z -> bool).
Lemma unpack_walk h0 o fs L : walk h0 o fs L -> exists n, forall fuel h p cyc q vs, n <= fuel -> sim h h0 ->
  free h0 o fs cyc -> unpack_fields p (repeat 32%Z (length L)) = Ok (q, vs) ->
  exists h', unpack_each decodes (unpack_object decodes fuel) h o fs p cyc = Done (h', q) cyc /\ heq h' (fill h L vs).
Proof.
  induction 1 as [o|o f fs L W [n IH]|o f z fs L E W [n IH]|o f c fs L1 L2 E W1 [n1 IH1] W2 [n2 IH2]].
  - exists 0. intros fuel h p cyc q vs _ _ _ H. cbn in H. injection H as <- <-. exists h. split; [reflexivity|apply heq_refl].
  - exists n. intros fuel h p cyc q vs Hn HS HF HU. cbn [unpack_each]. apply IH; auto. eapply free_tail; eauto.
  - exists n. intros fuel h p cyc q vs Hn HS HF HU. cbn [unpack_each]. destruct (sim_int _ _ _ _ _ HS E) as [a EA]. rewrite EA.
    cbn [length repeat unpack_fields] in HU. unfold int_bits. destruct (unpack_field_int p 32) as [[p1 v]| |]; cbn [bind] in *; try discriminate.
    destruct (unpack_fields p1 _) as [[p2 w]| |] eqn:EU; cbn [bind] in *; try discriminate. injection HU as <- <-.
    cbn [fill]. apply IH; auto; [eapply sim_set; eauto|eapply free_tail; eauto].
  - exists (Nat.max (S n1) n2). intros [|fuel] h p cyc q vs Hn HS HF HU; [lia|].
    assert (HN : ~ below h0 c c) by (eapply walk_acyclic; [econstructor; eauto|now left|auto]).
    destruct (free_child _ _ _ _ _ _ HF E HN) as [HC HF'].
    rewrite app_length, repeat_app in HU. destruct (unpack_fields_app _ _ _ _ _ HU) as (q1 & v1 & v2 & U1 & U2 & -> & HL).
    rewrite repeat_length in HL.
    cbn [unpack_each]. rewrite (sim_obj _ _ _ _ _ HS E).
    assert (EO : unpack_object decodes (S fuel) h p cyc c =
      match unpack_each decodes (unpack_object decodes fuel) h c (flds (h c)) p (c :: cyc) with Done a cyc1 => Done a (del c cyc1) | e => e end).
    { cbn [unpack_object]. now rewrite (proj2 (mem_out c cyc) HC). }
    rewrite EO.
    destruct (IH1 fuel h p (c :: cyc) q1 v1) as (h1 & E1 & Q1); auto; [lia|].
    rewrite (proj1 (HS c)). rewrite E1, del_cons by auto.
    assert (HS1 : sim h1 h0). { eapply sim_heq; [exact Q1|]. apply sim_fill; auto. eapply walk_ints; eauto. }
    assert (Q2 : heq (set h1 o f (VObj c)) h1) by (apply heq_same; eapply sim_obj; eauto).
    destruct (IH2 (S fuel) (set h1 o f (VObj c)) q1 cyc q v2) as (h2 & E2 & Q3); auto; [lia| |eapply free_tail; eauto|].
    + eapply sim_heq; eauto.
    + exists h2. split; [exact E2|]. rewrite fill_app by auto. eapply heq_trans; [exact Q3|]. apply heq_fill.
      eapply heq_trans; [exact Q2|exact Q1].
Qed.
End Un.

(** ** What is read *)
Local Open Scope Z_scope.
Lemma read_words n : forall p, 0 <= m_bits p -> 0 <= count p -> 
  exists vs, unpack_fields p (repeat 32 n) =
      Ok (Pk (be p) (count p + 32 * Z.min (Z.of_nat n) (Z.max 0 ((psize p - count p) / 32))) (m_bits p) (psize p), vs) /\
    length vs = n /\
    forall i, (i < n)%nat -> exists v, nth_error vs i = Some v /\
      if (count p + 32 * Z.of_nat (S i)) <=? psize p
      then word v /\ forall j, 0 <= j < 32 -> Z.testbit v j = Z.testbit (m_bits p) (count p + 32 * Z.of_nat i + (if be p then 31 - j else j))
      else v = 0.
Proof.
  induction n as [|n IH]; intros p Hm Hc.
  - exists []. cbn [repeat unpack_fields]. split; [|split; [auto|intros; lia]]. destruct p as [b c m sz]. cbn [be count m_bits psize]. f_equal. f_equal. f_equal. lia.
  - cbn [repeat unpack_fields]. destruct (Z.le_gt_cases (count p + 32) (psize p)) as [HL|HL].
    + destruct (unpack_ok p 32) as (v & -> & Hv & Hb); auto; try lia. cbn [bind].
      destruct (IH (Pk (be p) (count p + 32) (m_bits p) (psize p))) as (vs & E & HLen & HI); cbn [be count m_bits psize] in *; auto; [lia|].
      rewrite E. cbn [bind]. exists (v :: vs). split; [|split; [cbn; lia|]].
      * f_equal. f_equal. f_equal. replace (psize p - count p) with ((psize p - (count p + 32)) + 1 * 32) by lia.
        rewrite Z.div_add by lia. assert (0 <= (psize p - (count p + 32)) / 32) by (apply Z.div_pos; lia). lia.
      * intros [|i] Hi.
        -- exists v. split; auto. replace (_ <=? _) with true by lia. split; [exact Hv|]. intros j Hj. rewrite Hb by lia. f_equal. destruct (be p); lia.
        -- destruct (HI i ltac:(lia)) as (w & Ew & Hw). exists w. split; auto.
           replace (count p + 32 * Z.of_nat (S (S i)) <=? psize p) with (count p + 32 + 32 * Z.of_nat (S i) <=? psize p) by lia.
           destruct (_ <=? _); auto. destruct Hw as [Hw1 Hw2]. split; auto. intros j Hj. rewrite Hw2 by auto. f_equal. lia.
    + rewrite unpack_short by lia. cbn [bind]. destruct (IH p) as (vs & E & HLen & HI); auto. rewrite E. cbn [bind].
      exists (0 :: vs). assert (HD : (psize p - count p) / 32 <= 0). { apply Z.lt_succ_r. apply Z.div_lt_upper_bound; lia. }
      split; [|split; [cbn; lia|]].
      * f_equal. f_equal. f_equal. lia.
      * intros [|i] Hi.
        -- exists 0. split; auto. now replace (_ <=? _) with false by lia.
        -- destruct (HI i ltac:(lia)) as (w & Ew & Hw). exists w. split; auto.
           replace (count p + 32 * Z.of_nat (S i) <=? psize p) with false in Hw by lia.
           now replace (_ <=? _) with false by lia.
Qed.
