From Coq Require Import ZArith List Bool Arith Lia ZifyBool ZifyNat.
From Verif Require Import Prelude PyList PackerModel PackerSpec PackerProofs PkoModel PkoSpec PkoProofs.
Import ListNotations.
Local Open Scope Z_scope.

(** ** The stream *)
Lemma words_fit big l : Forall word l -> Forall (fits big) (words l).
Proof. induction 1 as [|z l H F IH]; cbn; constructor; auto. split; cbn; [exact H|]. destruct big; lia. Qed.
Lemma stream_nth big l : forall i z j, nth_error l i = Some z -> 0 <= j < 32 ->
  nth (Z.to_nat (32 * Z.of_nat i + j)) (stream big (words l)) false = word_bit big z j.
Proof.
  induction l as [|x l IH]; intros [|i] z j E Hj; try discriminate; unfold stream; cbn [words map flat_map fst snd]; fold (words l);
  fold (stream big (words l)).
  - cbn in E. injection E as ->. rewrite app_nth1 by (rewrite field_bits_length; lia).
    replace (32 * Z.of_nat 0 + j) with j by lia. rewrite field_bits_nth by lia. unfold word_bit. destruct big; f_equal; lia.
  - rewrite app_nth2 by (rewrite field_bits_length; lia). rewrite field_bits_length. cbn in E. rewrite <- (IH i z j E Hj). f_equal. lia.
Qed.
Lemma stream_is_bits big l m : Forall word l -> is_stream (stream big (words l)) m -> is_bits big l m.
Proof.
  intros HF HS. assert (HL := stream_length big (words l) (words_fit big l HF)).
  assert (HT : total (words l) = 32 * Z.of_nat (length l)).
  { clear. induction l as [|x l IH]; [reflexivity|]. cbn [words map total fold_right fst]. change (fold_right _ 0 _) with (total (words l)). rewrite IH. cbn [length]. lia. }
  split.
  - split; [eapply stream_nonneg; eauto|]. apply bits_bound; [eapply stream_nonneg; eauto|lia|].
    intros i Hi. rewrite HS by lia. apply nth_overflow. lia.
  - intros i z j E Hj. rewrite HS by lia. now apply stream_nth.
Qed.
Lemma pack_words big l : Forall word l -> exists q, pack_fields (Pk big 0 0 0) (words l) = Ok q /\ be q = big /\
  count q = 32 * Z.of_nat (length l) /\ is_bits big l (m_bits q).
Proof.
  intros HF. destruct (pack_fields_gen (words l) (Pk big 0 0 0) []) as (q & E & HB & _ & HS & HC).
  - now apply words_fit.
  - intros i Hi. cbn. rewrite Z.bits_0. now destruct (Z.to_nat i).
  - reflexivity.
  - cbn [app be] in *. exists q. split; auto. split; auto. split; [|now apply stream_is_bits].
    rewrite HC, stream_length by now apply words_fit. clear. induction l as [|x l IH]; [reflexivity|].
    cbn [words map total fold_right fst]. change (fold_right _ 0 _) with (total (words l)). rewrite IH. cbn [length]. lia.
Qed.
Lemma pack_words_bad z pre post p : be p = true -> Forall word pre -> ~ word z ->
  pack_fields p (words (pre ++ z :: post)) = if z <? 0 then Diverge else Raise.
Proof.
  intros HB HF HZ. revert p HB. induction HF as [|x pre Hx HF IH]; intros p HB; cbn [app words map pack_fields].
  - unfold pack_field_int. rewrite HB. destruct (z <? 0) eqn:EZ.
    + destruct z as [|q|q]; [lia|lia|]. reflexivity.
    + rewrite flip_too_wide; auto; [lia|lia|]. unfold word in HZ. destruct z as [|q|q]; [lia| |lia]. cbn [num_bits].
      destruct (Z.lt_ge_cases 32 (Zpos (Pos.size q))); auto. exfalso. apply HZ. split; [lia|]. pose proof (pos_size_gt q).
      eapply Z.lt_le_trans; [eassumption|]. apply Z.pow_le_mono_r; lia.
  - unfold pack_field_int. rewrite HB. destruct (flip_ok x 32) as (f & -> & _); [exact Hx|lia|]. cbn [bind]. apply IH. reflexivity.
Qed.
(** Little endian packing of any ints *)
Lemma pack_words_little l : forall p, be p = false -> 0 <= count p -> pack_fields p (words l) =
  Ok (Pk false (count p + 32 * Z.of_nat (length l)) (Z.lor (m_bits p) (Z.shiftl (lor_all l) (count p))) (psize p)).
Proof.
  induction l as [|z l IH]; intros p HB HC; cbn [words map pack_fields lor_all length].
  - rewrite Z.shiftl_0_l, Z.lor_0_r. destruct p as [b c m s]. cbn in *. subst. f_equal. f_equal. lia.
  - unfold pack_field_int. rewrite HB. cbn [bind]. fold (words l). rewrite IH; cbn [be count m_bits psize]; [|auto|lia]. f_equal. f_equal; [lia|].
    rewrite <- Z.lor_assoc. f_equal. rewrite Z.shiftl_lor, Z.shiftl_shiftl by lia. f_equal. f_equal. lia.
Qed.

(** ** The number of digits *)
Lemma num_bits_le k m : 0 <= m -> 1 < k -> (k <= num_bits m <-> 2 ^ (k - 1) <= m).
Proof.
  intros Hm Hk. destruct m as [|p|p]; [|cbn [num_bits]|lia].
  - cbn. assert (0 < 2 ^ (k - 1)) by (apply Z.pow_pos_nonneg; lia). lia.
  - split; intros H.
    + destruct (Z.lt_ge_cases (Zpos p) (2 ^ (k - 1))) as [HL|]; auto. apply pos_size_bound in HL. lia.
    + pose proof (pos_size_gt p) as HG. assert (2 ^ (k - 1) < 2 ^ Zpos (Pos.size p)) by lia.
      apply Z.pow_lt_mono_r_iff in H0; lia.
Qed.

Lemma survives_iff big l m i : Forall word l -> is_bits big l m -> (i < length l)%nat ->
  (32 * Z.of_nat (S i) <= num_bits m <-> survives big l i).
Proof.
  intros HF [HM HB] Hi. rewrite num_bits_le by lia. split.
  - intros HG. destruct (nth_error l i) as [z|] eqn:E; [|apply nth_error_None in E; lia].
    destruct (word_bit big z 31) eqn:EW; [left; eauto|right].
    destruct (existsb (fun z => negb (z =? 0)) (skipn (S i) l)) eqn:EX.
    + apply existsb_exists in EX. destruct EX as (x & HI & HX). apply In_nth_error in HI. destruct HI as [k HK].
      rewrite nth_error_skipn in HK. exists (S i + k)%nat, x. split; [lia|]. split; [|lia]. auto.
    + exfalso. assert (m < 2 ^ (32 * Z.of_nat (S i) - 1)); [|lia]. apply bits_bound; [lia|lia|]. intros b Hb.
      destruct (Z.lt_ge_cases b (32 * Z.of_nat (length l))) as [HL|HL]; [|eapply testbit_above; eauto].
      pose proof (Z.div_mod b 32 ltac:(lia)) as HD. pose proof (Z.mod_pos_bound b 32 ltac:(lia)) as HR.
      set (k := Z.to_nat (b / 32)). assert (Hk : Z.of_nat k = b / 32) by (unfold k; rewrite Z2Nat.id; auto; apply Z.div_pos; lia).
      assert (Hkl : (k < length l)%nat) by lia. destruct (nth_error l k) as [x|] eqn:EK; [|apply nth_error_None in EK; lia].
      rewrite HD. rewrite <- Hk. rewrite (HB k x _ EK HR).
      destruct (Nat.eq_dec k i) as [->|Hne].
      * rewrite E in EK. injection EK as <-. replace (b mod 32) with 31 by lia. exact EW.
      * assert (x = 0) as ->.
        { destruct (Z.eq_dec x 0); auto. exfalso. apply Bool.not_true_iff_false in EX. apply EX. apply existsb_exists. exists x. split; [|lia].
          apply nth_error_In with (k - S i)%nat. rewrite nth_error_skipn. replace (S i + (k - S i))%nat with k by lia. exact EK. }
        unfold word_bit. apply Z.bits_0.
  - intros HS. assert (HX : exists b, 32 * Z.of_nat (S i) - 1 <= b /\ Z.testbit m b = true).
    { destruct HS as [(z & E & HZ)|(k & z & Hk & E & HZ)].
      - exists (32 * Z.of_nat i + 31). split; [lia|]. rewrite (HB i z 31 E) by lia. exact HZ.
      - assert (Hw : word z). { rewrite Forall_forall in HF. apply HF. eapply nth_error_In; eauto. } unfold word in Hw.
        assert (Hj : 0 <= Z.log2 z < 32). { split; [apply Z.log2_nonneg|]. apply Z.log2_lt_pow2; lia. }
        exists (32 * Z.of_nat k + (if big then 31 - Z.log2 z else Z.log2 z)). split; [destruct big; lia|].
        rewrite (HB k z _ E) by (destruct big; lia). unfold word_bit. destruct big.
        + replace (31 - (31 - Z.log2 z)) with (Z.log2 z) by lia. apply Z.bit_log2. lia.
        + apply Z.bit_log2. lia. }
    destruct HX as (b & Hb & HT). destruct (Z.lt_ge_cases m (2 ^ (32 * Z.of_nat (S i) - 1))); auto.
    exfalso. rewrite (testbit_above m (32 * Z.of_nat (S i) - 1)) in HT by lia. discriminate.
Qed.
Lemma word_eq big m l i z v : Forall word l -> is_bits big l m -> nth_error l i = Some z -> word v ->
  (forall j, 0 <= j < 32 -> Z.testbit v j = Z.testbit m (32 * Z.of_nat i + (if big then 31 - j else j))) -> v = z.
Proof.
  intros HF [_ HB] E Hv HX. apply bits_eq_bounded with 32; [exact Hv| |].
  - rewrite Forall_forall in HF. apply HF. eapply nth_error_In; eauto.
  - intros j Hj. rewrite HX by auto. rewrite (HB i z _ E) by (destruct big; lia). unfold word_bit. destruct big; f_equal; lia.
Qed.

(** ** cycle_check over calls *)
Local Open Scope nat_scope.
Lemma pack_cyc ref h fuel : (forall p cyc o, match pack_object ref fuel h p cyc o with
    | Done _ c => c = cyc | Raised c => exists path, c = path ++ cyc | _ => True end).
Proof.
  assert (HE : forall rec o, (forall p cyc o, match rec p cyc o with Done _ c => c = cyc | Raised c => exists path, c = path ++ cyc | _ => True end) ->
    forall fs p cyc, match pack_each rec h o fs p cyc with Done _ c => c = cyc | Raised c => exists path, c = path ++ cyc | _ => True end).
  { intros rec o HR. induction fs as [|[f []] fs IH]; intros p cyc; cbn [pack_each]; auto; [|apply IH].
    destruct (att (h o) f) as [z|s|c|].
    - destruct (pack_field_int _ _ _); auto; apply IH || now exists [].
    - destruct (pack_string _ _); auto; apply IH || now exists [].
    - specialize (HR p cyc c). destruct (rec p cyc c) as [p1 c1|c1| |]; auto. subst. apply IH.
    - now exists []. }
  induction fuel as [|fuel IH]; intros p cyc o; cbn [pack_object]; auto.
  destruct (mem o cyc) eqn:EM; auto. apply mem_out in EM. destruct ref; [now apply del_cons|].
  specialize (HE (pack_object false fuel h) o IH (flds (h o)) p (o :: cyc)).
  destruct (pack_each _ _ _ _ _ _) as [p1 c1|c1| |]; auto; [subst; now apply del_cons|].
  destruct HE as [path ->]. exists (path ++ [o]). now rewrite <- app_assoc.
Qed.
Lemma pack_each_cyc ref h fuel o : forall fs p cyc, match pack_each (pack_object ref fuel h) h o fs p cyc with
    | Done _ c => c = cyc | Raised c => exists path, c = path ++ cyc | _ => True end.
Proof.
  induction fs as [|[f []] fs IH]; intros p cyc; cbn [pack_each]; auto; [|apply IH].
  destruct (att (h o) f) as [z|s|c|].
  - destruct (pack_field_int _ _ _); auto; apply IH || now exists [].
  - destruct (pack_string _ _); auto; apply IH || now exists [].
  - pose proof (pack_cyc ref h fuel p cyc c) as HR. destruct (pack_object ref fuel h p cyc c) as [p1 c1|c1| |]; auto. subst. apply IH.
  - now exists [].
Qed.
Lemma unpack_cyc dec fuel : (forall h p cyc o, match unpack_object dec fuel h p cyc o with
    | Done _ c => c = cyc | Raised c => exists path, c = path ++ cyc | _ => True end) /\
  (forall o fs h p cyc, match unpack_each dec (unpack_object dec fuel) h o fs p cyc with
    | Done _ c => c = cyc | Raised c => exists path, c = path ++ cyc | _ => True end).
Proof.
  assert (HE : forall rec o, (forall h p cyc o, match rec h p cyc o with Done _ c => c = cyc | Raised c => exists path, c = path ++ cyc | _ => True end) ->
    forall fs h p cyc, match unpack_each dec rec h o fs p cyc with Done _ c => c = cyc | Raised c => exists path, c = path ++ cyc | _ => True end).
  { intros rec o HR. induction fs as [|[f []] fs IH]; intros h p cyc; cbn [unpack_each]; auto; [|apply IH].
    destruct (att (h o) f) as [z|s|c|].
    - destruct (unpack_field_int _ _) as [[p1 v]| |]; auto; apply IH || now exists [].
    - destruct (unpack_string _ _) as [[p1 s1]|]; auto. destruct (dec s1); [apply IH|now exists []].
    - specialize (HR h p cyc c). destruct (rec h p cyc c) as [[h1 p1] c1|c1| |]; auto. subst. apply IH.
    - now exists []. }
  enough (HO : forall h p cyc o, match unpack_object dec fuel h p cyc o with
    | Done _ c => c = cyc | Raised c => exists path, c = path ++ cyc | _ => True end) by (split; [exact HO|intros; now apply HE]).
  induction fuel as [|fuel IH]; intros h p cyc o; cbn [unpack_object]; auto.
  destruct (mem o cyc) eqn:EM; auto. apply mem_out in EM.
  specialize (HE (unpack_object dec fuel) o IH (flds (h o)) h p (o :: cyc)).
  destruct (unpack_each _ _ _ _ _ _ _) as [p1 c1|c1| |]; auto; [subst; now apply del_cons|].
  destruct HE as [path ->]. exists (path ++ [o]). now rewrite <- app_assoc.
Qed.

(** An object in cycle_check has no influence. *)
Lemma pack_skip ref h h' c fuel : (forall o, o <> c -> h' o = h o) ->
  (forall p cyc o, In c cyc -> pack_object ref fuel h' p cyc o = pack_object ref fuel h p cyc o) /\
  (forall o fs p cyc, In c cyc -> o <> c -> pack_each (pack_object ref fuel h') h' o fs p cyc = pack_each (pack_object ref fuel h) h o fs p cyc).
Proof.
  intros HH.
  assert (HE : forall n, (forall p cyc o, In c cyc -> pack_object ref n h' p cyc o = pack_object ref n h p cyc o) ->
    forall o fs p cyc, In c cyc -> o <> c -> pack_each (pack_object ref n h') h' o fs p cyc = pack_each (pack_object ref n h) h o fs p cyc).
  { intros n HR o. induction fs as [|[f []] fs IH]; intros p cyc HI HN; cbn [pack_each]; auto. rewrite HH by auto.
    destruct (att (h o) f) as [z|s|d|]; auto.
    - destruct (pack_field_int _ _ _); auto.
    - destruct (pack_string _ _); auto.
    - rewrite HR by auto. pose proof (pack_cyc ref h n p cyc d) as HC. destruct (pack_object ref n h p cyc d); auto. subst. auto. }
  enough (HO : forall p cyc o, In c cyc -> pack_object ref fuel h' p cyc o = pack_object ref fuel h p cyc o) by (split; [exact HO|now apply HE]).
  induction fuel as [|fuel IH]; intros p cyc o HI; cbn [pack_object]; auto.
  destruct (mem o cyc) eqn:EM; auto. destruct ref; auto. apply mem_out in EM. assert (o <> c) by (intros ->; auto).
  rewrite HH by auto. rewrite HE; auto. now right.
Qed.

(** Where an exception leaves the call *)
Lemma bytes_num_nonneg l : Forall (fun b => (0 <= b < 256)%Z) l -> (0 <= bytes_num l)%Z.
Proof.
  unfold bytes_num. assert (H : forall acc, (0 <= acc)%Z -> Forall (fun b => (0 <= b < 256)%Z) l -> (0 <= fold_left (fun acc b => (acc * 256 + b)%Z) l acc)%Z).
  { induction l as [|x l IH]; intros acc Ha HF; cbn; auto. inversion HF; subst. apply IH; auto. lia. }
  intros HF. apply H; auto. lia.
Qed.
Lemma be_kept p v n q : pack_field_int p v n = Ok q -> be q = be p.
Proof. unfold pack_field_int. destruct (if be p then _ else _); cbn; intros H; inversion H; auto. Qed.
Lemma be_kept_str p s q : pack_string p s = Ok q -> be q = be p.
Proof. unfold pack_string. destruct s; [discriminate|]. destruct (if be p then _ else _); cbn; intros H; inversion H; auto. Qed.
Lemma pack_stops h fuel :
  (forall p cyc o, match pack_object false fuel h p cyc o with
    | Done q _ => be q = be p | Raised c => exists path, stops h (be p) o path /\ c = path ++ o :: cyc | _ => True end) /\
  (forall o fs p cyc, incl fs (flds (h o)) -> match pack_each (pack_object false fuel h) h o fs p cyc with
    | Done q _ => be q = be p | Raised c => exists path, stops h (be p) o path /\ c = path ++ cyc | _ => True end).
Proof.
  assert (HE : forall n, (forall p cyc o, match pack_object false n h p cyc o with
      | Done q _ => be q = be p | Raised c => exists path, stops h (be p) o path /\ c = path ++ o :: cyc | _ => True end) ->
    forall o fs p cyc, incl fs (flds (h o)) -> match pack_each (pack_object false n h) h o fs p cyc with
      | Done q _ => be q = be p | Raised c => exists path, stops h (be p) o path /\ c = path ++ cyc | _ => True end).
  { intros n HR o. induction fs as [|[f []] fs IH]; intros p cyc HI; cbn [pack_each]; auto.
    2: { apply IH. intros x Hx. apply HI. now right. }
    assert (HF : In (f, true) (flds (h o))) by (apply HI; now left).
    assert (HI' : incl fs (flds (h o))) by (intros x Hx; apply HI; now right).
    destruct (att (h o) f) as [z|s|d|] eqn:EA.
    - destruct (pack_field_int p z int_bits) as [p1| |] eqn:EP; auto.
      + rewrite <- (be_kept _ _ _ _ EP). now apply IH.
      + exists []. split; auto. eapply s_here; eauto. rewrite EA. right. right. unfold pack_field_int in EP.
        destruct (be p); [|discriminate]. split; auto. exists z. split; auto. destruct (Z.le_gt_cases (2 ^ 32) z) as [|HL]; auto. exfalso.
        destruct (Z.lt_ge_cases z 0); [destruct z; try lia; discriminate|].
        destruct (flip_ok z int_bits) as (q & Eq & _); [split; auto|reflexivity|]. rewrite Eq in EP. discriminate.
    - destruct (pack_string p s) as [p1| |] eqn:EP; auto.
      + rewrite <- (be_kept_str _ _ _ EP). now apply IH.
      + exists []. split; auto. eapply s_here; eauto. rewrite EA. unfold pack_string in EP. destruct s as [|b s]; [right; now left|].
        exfalso. destruct (be p); [|discriminate]. destruct (bytes_num (b :: s)) as [|q|q]; cbn in EP; discriminate.
    - specialize (HR p cyc d). pose proof (pack_cyc false h n p cyc d) as HK.
      destruct (pack_object false n h p cyc d) as [p1 c1|c1| |]; auto.
      + subst c1. rewrite <- HR. now apply IH.
      + destruct HR as (path & HS & ->). exists (path ++ [d]). split; [eapply s_down; eauto|]. now rewrite <- app_assoc.
    - exists []. split; auto. eapply s_here; eauto. rewrite EA. now left. }
  enough (HO : forall p cyc o, match pack_object false fuel h p cyc o with
    | Done q _ => be q = be p | Raised c => exists path, stops h (be p) o path /\ c = path ++ o :: cyc | _ => True end) by (split; [exact HO|now apply HE]).
  induction fuel as [|fuel IH]; intros p cyc o; cbn [pack_object]; auto.
  destruct (mem o cyc); auto. specialize (HE fuel IH o (flds (h o)) p (o :: cyc) (incl_refl _)).
  destruct (pack_each _ _ _ _ _ _); auto.
Qed.

(** ** Termination *)
Definition left (dom cyc : list nat) : nat := length (filter (fun o => negb (mem o cyc)) dom).
Lemma left_less dom cyc o : In o dom -> ~ In o cyc -> left dom (o :: cyc) < left dom cyc.
Proof.
  intros HI HN. unfold left. 
  assert (HM : forall x, mem x (o :: cyc) = Nat.eqb x o || mem x cyc) by reflexivity.
  assert (HLE : forall d, length (filter (fun x => negb (mem x (o :: cyc))) d) <= length (filter (fun x => negb (mem x cyc)) d)).
  { induction d as [|x d IH]; cbn [filter]; auto. rewrite HM. destruct (Nat.eqb x o), (mem x cyc); cbn [negb orb length]; lia. }
  induction dom as [|x d IH]; [destruct HI|]. cbn [filter]. rewrite HM. destruct HI as [->|HI].
  - apply mem_out in HN. rewrite Nat.eqb_refl, HN. cbn [negb orb length]. specialize (HLE d). lia.
  - specialize (IH HI). destruct (Nat.eqb x o), (mem x cyc); cbn [negb orb length]; try lia.
Qed.
Lemma pack_ends ref h dom : closed h dom -> forall fuel,
  (forall p cyc o, In o dom -> left dom cyc < fuel -> pack_object ref fuel h p cyc o <> NoFuel) /\
  (forall o fs p cyc, In o dom -> incl fs (flds (h o)) -> left dom cyc < fuel -> pack_each (pack_object ref fuel h) h o fs p cyc <> NoFuel).
Proof.
  intros HC.
  assert (HE : forall n, (forall p cyc o, In o dom -> left dom cyc < n -> pack_object ref n h p cyc o <> NoFuel) ->
    forall o fs p cyc, In o dom -> incl fs (flds (h o)) -> left dom cyc < n -> pack_each (pack_object ref n h) h o fs p cyc <> NoFuel).
  { intros n HR o. induction fs as [|[f []] fs IH]; intros p cyc HD HI HL; cbn [pack_each]; try discriminate.
    2: { apply IH; auto. intros x Hx. apply HI. now right. }
    assert (HF : In (f, true) (flds (h o))) by (apply HI; now left).
    assert (HI' : incl fs (flds (h o))) by (intros x Hx; apply HI; now right).
    destruct (att (h o) f) as [z|s|d|] eqn:EA; try discriminate.
    - destruct (pack_field_int _ _ _); try discriminate. now apply IH.
    - destruct (pack_string _ _); try discriminate. now apply IH.
    - assert (Hd : In d dom) by (eapply HC; eauto). specialize (HR p cyc d Hd HL). pose proof (pack_cyc ref h n p cyc d) as HK.
      destruct (pack_object ref n h p cyc d); try discriminate; [subst; now apply IH|congruence]. }
  induction fuel as [|fuel [IH _]]; [split; intros; lia|].
  enough (HO : forall p cyc o, In o dom -> left dom cyc < S fuel -> pack_object ref (S fuel) h p cyc o <> NoFuel) by (split; [exact HO|now apply HE]).
  intros p cyc o HI HL. cbn [pack_object]. destruct (mem o cyc) eqn:EM; [discriminate|]. destruct ref; [discriminate|]. apply mem_out in EM.
  pose proof (left_less dom cyc o HI EM) as HLL. specialize (HE fuel IH o (flds (h o)) p (o :: cyc) HI (incl_refl _) ltac:(lia)).
  destruct (pack_each _ _ _ _ _ _); congruence.
Qed.
Lemma sim_closed h h0 dom : sim h h0 -> closed h0 dom -> closed h dom.
Proof. intros HS HC o f c HI HF HA. destruct (HS o) as [A B]. rewrite A in HF. destruct (B f) as [E|(a & b & E & _)]; [|congruence]. eapply HC; eauto. congruence. Qed.
(** the same object fields *)
Definition objs (h h0 : heap) : Prop := forall o, flds (h o) = flds (h0 o) /\ forall f c, att (h o) f = VObj c <-> att (h0 o) f = VObj c.
Lemma objs_set h h0 o f v : objs h h0 -> (forall c, v = VObj c <-> att (h o) f = VObj c) -> objs (set h o f v) h0.
Proof.
  intros H HV o'. destruct (H o') as [A B]. rewrite set_flds. split; auto. intros f' c. rewrite set_att.
  destruct (Nat.eqb o o' && Nat.eqb f f') eqn:EQ; auto. apply andb_true_iff in EQ. destruct EQ as [C D].
  apply Nat.eqb_eq in C, D. subst. rewrite HV. apply B.
Qed.
Lemma unpack_ends dec h0 dom : closed h0 dom -> forall fuel,
  (forall h p cyc o, objs h h0 -> In o dom -> left dom cyc < fuel -> match unpack_object dec fuel h p cyc o with NoFuel => False | Done (h', _) _ => objs h' h0 | _ => True end) /\
  (forall o fs h p cyc, objs h h0 -> In o dom -> incl fs (flds (h0 o)) -> left dom cyc < fuel ->
    match unpack_each dec (unpack_object dec fuel) h o fs p cyc with NoFuel => False | Done (h', _) _ => objs h' h0 | _ => True end).
Proof.
  intros HC.
  assert (HE : forall n, (forall h p cyc o, objs h h0 -> In o dom -> left dom cyc < n -> match unpack_object dec n h p cyc o with NoFuel => False | Done (h', _) _ => objs h' h0 | _ => True end) ->
    forall o fs h p cyc, objs h h0 -> In o dom -> incl fs (flds (h0 o)) -> left dom cyc < n ->
    match unpack_each dec (unpack_object dec n) h o fs p cyc with NoFuel => False | Done (h', _) _ => objs h' h0 | _ => True end).
  { intros n HR o. induction fs as [|[f []] fs IH]; intros h p cyc HO HD HI HL; cbn [unpack_each]; auto.
    2: { apply IH; auto. intros x Hx. apply HI. now right. }
    assert (HF : In (f, true) (flds (h0 o))) by (apply HI; now left).
    assert (HI' : incl fs (flds (h0 o))) by (intros x Hx; apply HI; now right).
    destruct (att (h o) f) as [z|s|d|] eqn:EA; auto.
    - destruct (unpack_field_int _ _) as [[p1 v]| |]; auto. apply IH; auto. apply objs_set; auto. intros c. rewrite EA. split; discriminate.
    - destruct (unpack_string _ _) as [[p1 s1]|]; auto. destruct (dec s1); auto. apply IH; auto. apply objs_set; auto. intros c. rewrite EA. split; discriminate.
    - assert (Hd : In d dom). { eapply HC; eauto. now apply HO. } specialize (HR h p cyc d HO Hd HL). pose proof (proj1 (unpack_cyc dec n) h p cyc d) as HK.
      destruct (unpack_object dec n h p cyc d) as [[h1 p1] c1|c1| |]; auto. subst. apply IH; auto. apply objs_set; auto.
      intros c. assert (E : att (h1 o) f = VObj d) by (apply HR, HO, EA). rewrite E. tauto. }
  induction fuel as [|fuel [IH _]]; [split; intros; lia|].
  enough (HO : forall h p cyc o, objs h h0 -> In o dom -> left dom cyc < S fuel ->
     match unpack_object dec (S fuel) h p cyc o with NoFuel => False | Done (h', _) _ => objs h' h0 | _ => True end) by (split; [exact HO|now apply HE]).
  intros h p cyc o HO HI HL. cbn [unpack_object]. destruct (mem o cyc) eqn:EM; auto. apply mem_out in EM.
  pose proof (left_less dom cyc o HI EM) as HLL. rewrite (proj1 (HO o)).
  specialize (HE fuel IH o (flds (h0 o)) h p (o :: cyc) HO HI (incl_refl _) ltac:(lia)).
  destruct (unpack_each _ _ _ _ _ _ _) as [[? ?] ?|?| |]; auto.
Qed.
