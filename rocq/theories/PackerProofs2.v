(** Arrays, strings, export of packed streams. *)
From Coq Require Import ZArith List Bool Arith Lia ZifyBool ZifyNat.
From Verif Require Import PyList PackerModel PackerSpec PackerProofs.
Import ListNotations.
Open Scope Z_scope.

Lemma total_cons f l : total (f :: l) = fst f + total l.
Proof. reflexivity. Qed.

Lemma add_nocarry_lor a b : Z.land a b = 0 -> a + b = Z.lor a b.
Proof. intros H. rewrite Z.add_nocarry_lxor by auto. now apply Z.lxor_lor. Qed.

(** ** Arrays *)
Definition arr_fields (w : Z) (b : bool) (value : list Z) : list (Z * Z) :=
  map (fun x => (w, x)) (if b then rev value else value).

Lemma arr_loop_fields w value : forall rest p,
  Forall (fun i => (i < length value)%nat) rest ->
  pack_arr_loop w value rest p =
  pack_fields p (map (fun i => (w, nth (if be p then length value - 1 - i else i)%nat value 0)) rest).
Proof.
  induction rest as [|i rest IH]; intros p HF; cbn [pack_arr_loop map pack_fields]; auto.
  inversion HF; subst. unfold pack_field_int. destruct (be p) eqn:EB.
  - rewrite nth_error_nth' with (d := 0) by lia.
    destruct (flip_bit_order _ _); cbn [bind]; auto. rewrite IH by auto. cbn [be]. reflexivity.
  - rewrite nth_error_nth' with (d := 0) by lia. cbn [bind]. rewrite IH by auto. cbn [be]. reflexivity.
Qed.

Lemma map_nth_seq (l : list Z) : map (fun i => nth i l 0) (seq 0 (length l)) = l.
Proof.
  induction l as [|a l IH]; cbn; auto. f_equal. rewrite <- seq_shift, map_map. exact IH.
Qed.

Lemma map_nth_rev (l : list Z) : map (fun i => nth (length l - 1 - i) l 0) (seq 0 (length l)) = rev l.
Proof.
  rewrite <- (map_nth_seq (rev l)), rev_length. apply map_ext_in. intros i Hi. apply in_seq in Hi.
  rewrite rev_nth by lia. f_equal. lia.
Qed.

Lemma pack_arr_fields w p value : 0 <= w -> pack_arr w p value (-1) = pack_fields p (arr_fields w (be p) value).
Proof.
  intros Hw. unfold pack_arr. replace (-1 <? 0) with true by lia.
  replace (_ <? _) with false by lia.
  rewrite arr_loop_fields. 2: { apply Forall_forall. intros i Hi. apply in_seq in Hi. lia. }
  unfold arr_fields. f_equal. destruct (be p).
  - rewrite <- (map_map (fun i => nth (length value - 1 - i) value 0) (fun x => (w, x))).
    now rewrite map_nth_rev.
  - rewrite <- (map_map (fun i => nth i value 0) (fun x => (w, x))). now rewrite map_nth_seq.
Qed.

Lemma arr_fields_fits w b value : 0 < w -> Forall (fun x => 0 <= x < 2 ^ w) value ->
  Forall (fits b) (arr_fields w b value).
Proof.
  intros Hw HF. unfold arr_fields. apply Forall_forall. intros f Hf. apply in_map_iff in Hf.
  destruct Hf as (x & <- & Hx).
  assert (In x value) by (destruct b; [now apply in_rev|auto]).
  rewrite Forall_forall in HF. split; cbn; [now apply HF|destruct b; lia].
Qed.

Lemma stream_app b f g : stream b (f ++ g) = stream b f ++ stream b g.
Proof. unfold stream. apply flat_map_app. Qed.

(** Word [k] of a stream. *)
Lemma word_ok (b : bool) w m l x r : 0 < w -> 0 <= x < 2 ^ w ->
  is_stream (l ++ field_bits b w x ++ r) m ->
  (if b then flip_bit_order (Z.land (Z.shiftr m (Z.of_nat (length l))) (Z.ones w)) w
   else Ok (Z.land (Z.shiftr m (Z.of_nat (length l))) (Z.ones w))) = Ok x.
Proof.
  intros Hw Hx HS. set (v := Z.land _ _).
  assert (Hv : 0 <= v < 2 ^ w).
  { unfold v. rewrite Z.land_ones by lia. apply Z.mod_pos_bound. lia. }
  assert (HB : forall i, 0 <= i < w -> Z.testbit v i = Z.testbit x (if b then w - 1 - i else i)).
  { intros i Hi. unfold v. rewrite Z.land_spec, shiftr_testbit_ok by lia.
    rewrite Z.ones_spec_low by lia. rewrite andb_true_r. rewrite HS by lia.
    rewrite app_nth2 by lia. rewrite app_nth1 by (rewrite field_bits_length; lia).
    rewrite <- field_bits_nth by auto. f_equal. lia. }
  destruct b.
  - destruct (flip_ok v w) as (f & -> & Hf & Hfb); auto. f_equal.
    apply bits_eq_bounded with w; auto. intros i Hi. rewrite Hfb by lia.
    replace (i <? w) with true by lia. rewrite HB by lia. f_equal. lia.
  - f_equal. apply bits_eq_bounded with w; auto.
Qed.

(** Positions read by the unpack loop. *)
Lemma unpack_arr_loop_ok w p arr m r : 0 < w -> m_bits p = m ->
  Forall (fun x => 0 <= x < 2 ^ w) arr ->
  is_stream (stream (be p) (arr_fields w (be p) arr) ++ r) m ->
  forall rest value, length value = length arr -> Forall (fun i => (i < length arr)%nat) rest ->
  exists out, unpack_arr_loop w p rest value = Ok out /\ length out = length arr /\
    forall j, (j < length arr)%nat ->
      nth j out 0 = if existsb (fun b => Nat.eqb j (if be p then length arr - 1 - b else b)) rest
                    then nth j arr 0 else nth j value 0.
Proof.
  intros Hw Hm HA HS. induction rest as [|b rest IH]; intros value HL HF; cbn [unpack_arr_loop existsb].
  - exists value. auto.
  - inversion HF as [|? ? Hb HF']; subst.
    set (j0 := (if be p then length arr - 1 - b else b)%nat).
    assert (Hj0 : (j0 < length arr)%nat) by (unfold j0; destruct (be p); lia).
    assert (HW : (if be p then flip_bit_order (Z.land (Z.shiftr (m_bits p) (Z.of_nat b * w)) (Z.ones w)) w
       else Ok (Z.land (Z.shiftr (m_bits p) (Z.of_nat b * w)) (Z.ones w))) = Ok (nth j0 arr 0)).
    { assert (HN : exists l1 l2, arr_fields w (be p) arr = l1 ++ (w, nth j0 arr 0) :: l2 /\ length l1 = b).
      { unfold arr_fields. set (src := if be p then rev arr else arr).
        assert (Hsrc : nth b src 0 = nth j0 arr 0).
        { unfold src, j0. destruct (be p); auto. rewrite rev_nth by lia. f_equal. lia. }
        assert (Hls : (b < length src)%nat) by (unfold src; destruct (be p); [rewrite rev_length|]; lia).
        rewrite <- Hsrc. destruct (nth_split src 0 Hls) as (l1 & l2 & E & El).
        exists (map (fun x => (w, x)) l1), (map (fun x => (w, x)) l2).
        split; [|now rewrite map_length]. rewrite E at 1. rewrite map_app. reflexivity. }
      destruct HN as (l1 & l2 & E & El).
      rewrite E, stream_app in HS. unfold stream in HS at 2. cbn [flat_map fst snd] in HS.
      rewrite <- !app_assoc in HS. 
      assert (Hlen : Z.of_nat (length (stream (be p) l1)) = Z.of_nat b * w).
      { assert (HX : Forall (fits (be p)) l1).
        { pose proof (arr_fields_fits w (be p) arr Hw HA) as HX. rewrite E in HX.
          apply Forall_app in HX. tauto. }
        rewrite stream_length by auto.
        assert (HY : Forall (fun f => fst f = w) l1).
        { assert (HY : Forall (fun f => fst f = w) (arr_fields w (be p) arr)).
          { unfold arr_fields. apply Forall_forall. intros f Hf. apply in_map_iff in Hf.
            destruct Hf as (? & <- & _). auto. }
          rewrite E in HY. apply Forall_app in HY. tauto. }
        rewrite <- El. clear -HY. induction HY as [|f l Hf HY IHl]; auto.
        rewrite total_cons, IHl, Hf. cbn [length]. lia. }
      rewrite <- Hlen. eapply word_ok; eauto.
      rewrite Forall_forall in HA. apply HA. apply nth_In. auto. }
    assert (HSet : forall v, length (set_nth value j0 v) = length arr).
    { intros v. rewrite set_nth_length; lia. }
    destruct (IH (set_nth value j0 (nth j0 arr 0)) (HSet _) HF') as (out & EO & LO & NO).
    exists out. split; [|split; auto].
    + destruct (be p) eqn:EB.
      * rewrite HW. cbn [bind]. rewrite HL. exact EO.
      * injection HW as HW. rewrite HW. exact EO.
    + intros j Hj. rewrite NO by auto. fold j0.
      destruct (existsb _ rest); [now rewrite orb_true_r|]. rewrite orb_false_r.
      assert (HX : nth_error (set_nth value j0 (nth j0 arr 0)) j =
        if Nat.eqb j j0 then Some (nth j0 arr 0) else nth_error value j) by (apply set_nth_nth; lia).
      destruct (Nat.eqb_spec j j0).
      * subst. now rewrite (nth_error_nth _ _ 0 HX).
      * rewrite (nth_error_nth' value 0) in HX by lia. now rewrite (nth_error_nth _ _ 0 HX).
Qed.

Lemma unpack_arr_ok w p arr r value : 0 < w -> count p = 0 ->
  Forall (fun x => 0 <= x < 2 ^ w) arr ->
  is_stream (stream (be p) (arr_fields w (be p) arr) ++ r) (m_bits p) ->
  zlen arr * w <= psize p -> length value = length arr ->
  unpack_arr w p value (-1) = Ok (Pk (be p) (zlen arr * w) (m_bits p) (psize p), arr).
Proof.
  intros Hw HC HA HS HP HL. unfold unpack_arr. replace (-1 <? 0) with true by lia.
  replace (zlen value * w <? zlen value * w) with false by lia.
  unfold enough_bits. rewrite HC, Z.sub_0_r. unfold zlen in *. rewrite HL.
  replace (negb _) with true by lia.
  destruct (unpack_arr_loop_ok w p arr (m_bits p) r Hw eq_refl HA HS (seq 0 (length arr)) value HL)
    as (out & -> & LO & NO).
  { apply Forall_forall. intros i Hi. apply in_seq in Hi. lia. }
  cbn [bind]. f_equal. f_equal.
  apply nth_ext with (d := 0) (d' := 0); auto. intros j Hj. rewrite LO in Hj. rewrite NO by auto.
  replace (existsb _ _) with true; auto. symmetry. apply existsb_exists.
  exists (if be p then length arr - 1 - j else j)%nat. split; [apply in_seq|apply Nat.eqb_eq]; destruct (be p); lia.
Qed.

Lemma nil_stream : is_stream [] 0.
Proof. intros i Hi. rewrite Z.bits_0. now destruct (Z.to_nat i). Qed.

Lemma total_arr w b arr : total (arr_fields w b arr) = zlen arr * w.
Proof.
  unfold arr_fields. assert (H : forall l, total (map (fun x => (w, x)) l) = zlen l * w).
  { unfold zlen. induction l as [|a l IH]; auto. cbn [map length]. rewrite total_cons, IH. cbn [fst]. lia. }
  rewrite H. unfold zlen. destruct b; [now rewrite rev_length|auto].
Qed.

Lemma total_nonneg b fs : Forall (fits b) fs -> 0 <= total fs.
Proof. intros H. rewrite <- (stream_length b) by auto. lia. Qed.

(** Array first, then any fields; the array is unpacked first. *)
Lemma arr_round_trip w b arr fs value : 0 < w -> Forall (fun x => 0 <= x < 2 ^ w) arr ->
  Forall (fits b) fs -> length value = length arr ->
  exists q q', pack_arr w (Pk b 0 0 0) arr (-1) = Ok q /\ pack_fields q fs = Ok q' /\
    unpack_arr w (set_packed_size q') value (-1) =
      Ok (Pk b (zlen arr * w) (m_bits q') (zlen arr * w + total fs), arr) /\
    unpack_fields (Pk b (zlen arr * w) (m_bits q') (zlen arr * w + total fs)) (map fst fs) =
      Ok (Pk b (zlen arr * w + total fs) (m_bits q') (zlen arr * w + total fs), map snd fs).
Proof.
  intros Hw HA HF HL. rewrite pack_arr_fields by lia. cbn [be].
  pose proof (arr_fields_fits w b arr Hw HA) as HFA.
  destruct (pack_fields_gen (arr_fields w b arr) (Pk b 0 0 0) []) as (q & E & Hbe & Hps & HS & HC); auto.
  { exact nil_stream. }
  cbn [app be] in *. exists q.
  assert (HF2 : Forall (fits (be q)) fs) by now rewrite Hbe.
  destruct (pack_fields_gen fs q (stream b (arr_fields w b arr))) as (q' & E' & Hbe' & Hps' & HS' & HC'); auto.
  rewrite Hbe in *. exists q'. split; auto. split; auto.
  assert (HCnt : count q' = zlen arr * w + total fs).
  { rewrite HC', app_length, Nat2Z.inj_add, !stream_length by auto. now rewrite total_arr. }
  pose proof (total_nonneg b fs HF).
  split.
  - rewrite (unpack_arr_ok w (set_packed_size q') arr (stream b fs) value); unfold set_packed_size;
      cbn [be m_bits count psize]; auto.
    + now rewrite Hbe', HCnt.
    + now rewrite Hbe'.
    + lia.
  - rewrite (unpack_fields_ok fs _ (stream b (arr_fields w b arr)) []); cbn [be m_bits count psize]; auto.
    + now rewrite app_nil_r.
    + rewrite stream_length by auto. now rewrite total_arr.
    + rewrite app_length, Nat2Z.inj_add, !stream_length by auto. rewrite total_arr. lia.
Qed.

(** ** Strings, little endian *)
Lemma bytes_num_snoc l b : bytes_num (l ++ [b]) = bytes_num l * 256 + b.
Proof. unfold bytes_num. now rewrite fold_left_app. Qed.

Lemma bytes_num_nonneg l : Forall (fun x => 0 <= x < 256) l -> 0 <= bytes_num l.
Proof.
  induction l as [|b l IH] using rev_ind; intros H; [cbn; lia|].
  rewrite bytes_num_snoc. apply Forall_app in H. destruct H as [H1 H2]. inversion H2; subst.
  specialize (IH H1). lia.
Qed.

Lemma bytes_stream l : Forall (fun x => 0 <= x < 256) l ->
  is_stream (stream false (map (fun x => (8, x)) (rev l))) (bytes_num l).
Proof.
  induction l as [|b l IH] using rev_ind; intros H; [exact nil_stream|].
  apply Forall_app in H. destruct H as [H1 H2]. inversion H2 as [|? ? Hb _]; subst.
  rewrite rev_app_distr, bytes_num_snoc. cbn [rev app map].
  change (stream false ((8, b) :: map (fun x => (8, x)) (rev l)))
    with (field_bits false 8 b ++ stream false (map (fun x => (8, x)) (rev l))).
  replace (bytes_num l * 256 + b) with (Z.lor b (Z.shiftl (bytes_num l) (Z.of_nat (length (field_bits false 8 b))))).
  - apply append_stream; [now apply bytes_num_nonneg| |auto].
    intros i Hi. destruct (Z.lt_ge_cases i 8).
    + now rewrite field_bits_nth by lia.
    + rewrite nth_overflow by (rewrite field_bits_length; lia). apply testbit_above with 8; auto.
  - rewrite field_bits_length. change (Z.of_nat (Z.to_nat 8)) with 8.
    rewrite <- add_nocarry_lor.
    + rewrite Z.shiftl_mul_pow2 by lia. lia.
    + apply Z.bits_inj'. intros i Hi. rewrite Z.land_spec, Z.bits_0.
      destruct (Z.lt_ge_cases i 8).
      * rewrite Z.shiftl_spec_low by lia. apply andb_false_r.
      * rewrite (testbit_above b 8) by (auto; lia). reflexivity.
Qed.

Lemma ustr_loop_ok bs : forall p pre r fuel num i nt acc,
  Forall (fun x => 0 <= x < 256) bs ->
  is_stream (pre ++ stream false (map (fun x => (8, x)) bs) ++ r) (m_bits p) ->
  count p = Z.of_nat (length pre) -> count p + 8 * zlen bs <= psize p ->
  (length bs < fuel)%nat ->
  (nt = false /\ num = i + zlen bs \/
   nt = true /\ Forall (fun x => x <> 0) bs /\
     (psize p < count p + 8 * zlen bs + 8 \/ exists r', r = field_bits false 8 0 ++ r')) ->
  ustr_loop fuel p num nt i acc =
    Some (Pk (be p) (count p + 8 * zlen bs) (m_bits p) (psize p), rev bs ++ acc).
Proof.
  unfold zlen. induction bs as [|b bs IH]; intros p pre r fuel num i nt acc HF HS HC HP Hfu HM;
    (destruct fuel as [|fuel]; [cbn in Hfu; lia|]); cbn [ustr_loop length].
  - replace (_ && _ && _) with false; [cbn; rewrite Z.add_0_r; now destruct p|].
    symmetry. destruct HM as [[-> ->]|(-> & _ & HM)].
    + cbn. replace (i <? i + 0) with false by lia. now rewrite !andb_false_r.
    + cbn [negb]. rewrite orb_false_r, orb_true_r, andb_true_r. destruct HM as [HM|[r' ->]].
      * unfold enough_bits. cbn in HM. replace (negb _) with false by lia. reflexivity.
      * assert (HW := word_ok false 8 (m_bits p) pre 0 r' ltac:(lia) ltac:(lia) HS).
        injection HW as HW. change 255 with (Z.ones 8). rewrite HC, HW. cbn. apply andb_false_r.
  - inversion HF as [|? ? Hb HF']; subst.
    change (stream false (map (fun x => (8, x)) (b :: bs)))
      with (field_bits false 8 b ++ stream false (map (fun x => (8, x)) bs)) in HS.
    assert (HW : Z.land (Z.shiftr (m_bits p) (count p)) 255 = b).
    { rewrite <- app_assoc in HS.
      assert (HW := word_ok false 8 (m_bits p) pre b _ ltac:(lia) Hb HS).
      injection HW as HW. change 255 with (Z.ones 8). now rewrite HC, HW. }
    rewrite HW. cbn [length] in HP.
    replace (_ && _ && _) with true.
    + rewrite (IH _ (pre ++ field_bits false 8 b) r); cbn [be m_bits count psize]; auto.
      * cbn [rev]. rewrite <- app_assoc.
        now replace (count p + 8 + 8 * Z.of_nat (length bs)) with (count p + 8 * Z.of_nat (S (length bs))) by lia.
      * rewrite <- !app_assoc in *. auto.
      * rewrite app_length, field_bits_length. lia.
      * lia.
      * cbn in Hfu. lia.
      * destruct HM as [[-> ->]|(-> & HN & HM)].
        -- left. split; auto. cbn [length]. lia.
        -- right. split; auto. inversion HN; subst. split; auto. destruct HM as [HM|HM]; auto.
           left. cbn [length] in HM. lia.
    + symmetry. unfold enough_bits. replace (negb (psize p - count p <? 8)) with true by lia.
      destruct HM as [[-> ->]|(-> & HN & HM)].
      * cbn [negb length]. rewrite orb_true_r, orb_false_r. cbn [andb]. lia.
      * inversion HN as [|? ? Hb0 _]. replace (b =? 0) with false by lia. cbn. apply orb_true_r.
Qed.

(** Preceding fields, a non-empty string, following fields. *)
Lemma pack_string_ok p l bytes : be p = false -> bytes <> [] ->
  Forall (fun x => 0 <= x < 256) bytes -> is_stream l (m_bits p) -> count p = Z.of_nat (length l) ->
  exists q, pack_string p bytes = Ok q /\ be q = false /\ psize q = psize p /\
    is_stream (l ++ stream false (map (fun x => (8, x)) (rev bytes))) (m_bits q) /\
    count q = Z.of_nat (length (l ++ stream false (map (fun x => (8, x)) (rev bytes)))).
Proof.
  intros HB HN HF HS HC. unfold pack_string. destruct bytes as [|b0 bs]; [easy|].
  set (bytes := b0 :: bs) in *. rewrite HB. cbn [bind].
  eexists. split; [reflexivity|]. cbn [be psize m_bits count]. split; auto. split; auto. split.
  - rewrite HC. apply append_stream; auto. now apply bytes_num_nonneg. now apply bytes_stream.
  - rewrite app_length, Nat2Z.inj_add.
    change (map (fun x => (8, x)) (rev bytes)) with (arr_fields 8 true bytes).
    rewrite stream_length.
    + rewrite total_arr. lia.
    + unfold arr_fields. apply Forall_forall. intros f Hf. apply in_map_iff in Hf.
      destruct Hf as (x & <- & Hx). apply in_rev in Hx. rewrite Forall_forall in HF.
      specialize (HF _ Hx). split; cbn; lia.
Qed.

Lemma string_round_trip pre bytes post nt :
  Forall (fits false) pre -> Forall (fits false) post -> bytes <> [] ->
  Forall (fun x => 0 <= x < 256) bytes ->
  (nt = true -> Forall (fun x => x <> 0) bytes /\ total post < 8) ->
  exists q1 q2 q3, pack_fields (Pk false 0 0 0) pre = Ok q1 /\ pack_string q1 bytes = Ok q2 /\
    pack_fields q2 post = Ok q3 /\
    let size := total pre + 8 * zlen bytes + total post in
    unpack_fields (set_packed_size q3) (map fst pre) =
      Ok (Pk false (total pre) (m_bits q3) size, map snd pre) /\
    unpack_string (Pk false (total pre) (m_bits q3) size) (if nt then -1 else zlen bytes) =
      Some (Pk false (total pre + 8 * zlen bytes + (if total post <? 8 then 0 else 8)) (m_bits q3) size, bytes).
Proof.
  intros HF1 HF2 HN HB HNT.
  destruct (pack_fields_gen pre (Pk false 0 0 0) []) as (q1 & E1 & B1 & _ & S1 & C1); auto.
  { exact nil_stream. }
  cbn [app be] in *.
  destruct (pack_string_ok q1 (stream false pre) bytes) as (q2 & E2 & B2 & _ & S2 & C2); auto.
  destruct (pack_fields_gen post q2 (stream false pre ++ stream false (map (fun x => (8, x)) (rev bytes))))
    as (q3 & E3 & B3 & _ & S3 & C3); auto. { now rewrite B2. }
  rewrite B2 in *. exists q1, q2, q3. split; auto. split; auto. split; auto.
  assert (LB : Z.of_nat (length (stream false (map (fun x => (8, x)) (rev bytes)))) = 8 * zlen bytes).
  { rewrite stream_length.
    - change (map (fun x => (8, x)) (rev bytes)) with (arr_fields 8 true bytes). rewrite total_arr. lia.
    - apply Forall_forall. intros f Hf. apply in_map_iff in Hf.
      destruct Hf as (x & <- & Hx). apply in_rev in Hx. rewrite Forall_forall in HB.
      specialize (HB _ Hx). split; cbn; lia. }
  assert (CQ : count q3 = total pre + 8 * zlen bytes + total post).
  { rewrite C3, !app_length, !Nat2Z.inj_add, LB, !stream_length by auto. lia. }
  pose proof (total_nonneg _ _ HF1). pose proof (total_nonneg _ _ HF2).
  cbv zeta. rewrite <- !app_assoc in S3. split.
  - rewrite (unpack_fields_ok pre _ [] (stream false (map (fun x => (8, x)) (rev bytes)) ++ stream false post));
      unfold set_packed_size; cbn [be m_bits count psize app]; rewrite ?B3; auto.
    + now rewrite CQ.
    + rewrite stream_length by auto. unfold zlen in CQ. lia.
  - unfold unpack_string.
    replace ((if nt then -1 else zlen bytes) =? -1) with nt by (destruct nt; unfold zlen; lia).
    rewrite (ustr_loop_ok (rev bytes) _ (stream false pre) (stream false post)); cbn [be m_bits count psize]; auto.
    + rewrite rev_involutive, app_nil_r. unfold zlen in *. rewrite rev_length.
      unfold enough_bits. cbn [be m_bits count psize].
      replace (negb _) with (negb (total post <? 8)) by lia.
      destruct (total post <? 8); cbn [negb]; [rewrite Z.add_0_r|]; reflexivity.
    + now apply Forall_rev.
    + now rewrite stream_length.
    + unfold zlen in *. rewrite rev_length. lia.
    + rewrite rev_length. unfold zlen. lia.
    + destruct nt.
      * right. destruct HNT as [HZ HT]; auto. split; auto. split; [now apply Forall_rev|].
        left. unfold zlen. rewrite rev_length. lia.
      * left. split; auto. unfold zlen. now rewrite rev_length.
Qed.

(** ** Export *)
Lemma get_words_ok w p : 0 < w -> 0 <= psize p ->
  exists l, get_words w p = map Ok l /\ zlen l = (psize p + (w - 1)) / w /\
    forall i, 0 <= i < zlen l -> exists v, nth_error l (Z.to_nat i) = Some v /\ 0 <= v < 2 ^ w /\
      forall j, 0 <= j < w -> Z.testbit v j =
        let k := w * i + (if be p then w - 1 - j else j) in (k <? psize p) && Z.testbit (m_bits p) k.
Proof.
  intros Hw Hp. unfold get_words. set (sz := (psize p + (w - 1)) / w).
  assert (Hsz : 0 <= sz) by (apply Z.div_pos; lia).
  match goal with |- context [map ?f (zrange sz)] => set (F := f) end.
  assert (HE : forall i, 0 <= i < sz -> exists v, F i = Ok v /\ 0 <= v < 2 ^ w /\
      forall j, 0 <= j < w -> Z.testbit v j =
        let k := w * i + (if be p then w - 1 - j else j) in (k <? psize p) && Z.testbit (m_bits p) k).
  { intros i Hi. unfold F. clear F. cbv zeta.
    set (v := if negb (i =? sz - 1) || _ then _ else _).
    assert (Hsz2 : w * sz <= psize p + (w - 1) < w * sz + w).
    { unfold sz. pose proof (Z.div_mod (psize p + (w - 1)) w). pose proof (Z.mod_pos_bound (psize p + (w - 1)) w). nia. }
    pose proof (Z.mod_pos_bound (psize p) w Hw) as Hmod.
    pose proof (Z.div_mod (psize p) w ltac:(lia)) as Hdm.
    assert (HV : 0 <= v < 2 ^ w /\ forall j, 0 <= j < w ->
       Z.testbit v j = (w * i + j <? psize p) && Z.testbit (m_bits p) (w * i + j)).
    { unfold v. destruct (_ || _) eqn:E.
      - split.
        + rewrite Z.land_ones by lia. apply Z.mod_pos_bound. apply Z.pow_pos_nonneg; lia.
        + intros j Hj. rewrite Z.land_spec, shiftr_testbit_ok by nia.
          rewrite Z.ones_spec_low by lia. rewrite andb_true_r.
          replace (w * i + j <? psize p) with true.
          * cbn. f_equal. lia.
          * symmetry. apply Z.ltb_lt. destruct (Z.eq_dec i (sz - 1)) as [->|].
            -- assert (psize p mod w = 0) by lia. 
               assert (sz = psize p / w).
               { set (q := psize p / w) in *. clearbody sz.
                 destruct (Z.lt_trichotomy sz q) as [|[|]]; auto; exfalso; nia. }
               nia.
            -- nia.
      - assert (i = sz - 1) as -> by lia. assert (Hm0 : psize p mod w <> 0) by lia.
        set (k := psize p mod w) in *.
        assert (HO : Z.shiftr (Z.ones w) (w - k) = Z.ones k).
        { rewrite Z.shiftr_div_pow2 by lia. rewrite Z.ones_div_pow2 by lia. f_equal. lia. }
        rewrite HO. split.
        + rewrite Z.land_ones by lia. pose proof (Z.mod_pos_bound (Z.shiftr (m_bits p) ((sz - 1) * w)) (2 ^ k) ltac:(apply Z.pow_pos_nonneg; lia)).
          assert (2 ^ k <= 2 ^ w) by (apply Z.pow_le_mono_r; lia). lia.
        + intros j Hj. rewrite Z.land_spec, shiftr_testbit_ok by nia.
          assert (HQ : sz - 1 = psize p / w).
          { set (q := psize p / w) in *. clearbody sz k.
            destruct (Z.lt_trichotomy (sz - 1) q) as [|[|]]; auto; exfalso; nia. }
          assert (HP : psize p = w * (sz - 1) + k) by (rewrite HQ; lia).
          destruct (Z.lt_ge_cases j k).
          * rewrite Z.ones_spec_low by lia. replace (_ <? _) with true by lia.
            rewrite andb_true_r. cbn. f_equal. lia.
          * rewrite Z.ones_spec_high by lia. replace (_ <? _) with false by lia.
            apply andb_false_r. }
    destruct HV as [HV1 HV2]. destruct (be p).
    - destruct (flip_ok v w) as (f & -> & Hf & Hb); auto. exists f. split; auto. split; auto.
      intros j Hj. rewrite Hb by lia. replace (j <? w) with true by lia. rewrite HV2 by lia. reflexivity.
    - exists v. auto. }
  clearbody F. assert (HS2 : forall n, Z.of_nat n <= sz ->
    exists l, map F (map Z.of_nat (seq 0 n)) = map Ok l /\ length l = n /\
    forall i, 0 <= i < Z.of_nat n -> exists v, nth_error l (Z.to_nat i) = Some v /\ 0 <= v < 2 ^ w /\
      forall j, 0 <= j < w -> Z.testbit v j =
        let k := w * i + (if be p then w - 1 - j else j) in (k <? psize p) && Z.testbit (m_bits p) k).
  { induction n as [|n IH]; intros Hn.
    - exists []. repeat split; auto. intros; lia.
    - destruct IH as (l & E & L & H); [lia|]. destruct (HE (Z.of_nat n)) as (v & Ev & Hv1 & Hv2); [lia|].
      exists (l ++ [v]). rewrite seq_S, !map_app, E. cbn. rewrite Ev, app_length. cbn.
      split; [reflexivity|]. split; [lia|]. intros i Hi.
      destruct (Z.eq_dec i (Z.of_nat n)) as [->|].
      + exists v. split; auto. rewrite nth_error_app2 by lia. rewrite L.
        replace (Z.to_nat (Z.of_nat n) - n)%nat with 0%nat by lia. reflexivity.
      + destruct (H i) as (v' & Hv' & HR); [lia|]. exists v'. split; auto.
        rewrite nth_error_app1; auto. lia. }
  destruct (HS2 (Z.to_nat sz)) as (l & E & L & H); [lia|]. exists l. split; [exact E|].
  split; [unfold zlen; lia|]. intros i Hi. apply H. unfold zlen in Hi. lia.
Qed.

Lemma num_bits_top v n : 0 <= v < 2 ^ n -> 0 < n -> Z.testbit v (n - 1) = true -> num_bits v = n.
Proof.
  intros Hv Hn HB. destruct v as [|p|p]; [now rewrite Z.bits_0 in HB| |lia].
  cbn [num_bits]. pose proof (pos_size_bound p n ltac:(lia)).
  destruct (Z.eq_dec (Zpos (Pos.size p)) n); auto.
  rewrite (testbit_above (Zpos p) (Zpos (Pos.size p))) in HB; [discriminate| |lia].
  split; [lia|apply pos_size_gt].
Qed.

Lemma slice_bits_ok bits cnt nbits : 0 <= nbits -> 0 <= cnt ->
  slice_bits bits cnt nbits = Z.land (Z.shiftr bits cnt) (Z.ones (nbits + 1)).
Proof.
  intros Hn Hc. unfold slice_bits. apply Z.bits_inj'. intros j Hj.
  assert (H : forall l acc, (forall i, In i l -> 0 <= i <= nbits) ->
    Z.testbit (fold_left (fun val idx => Z.lor val (Z.land (Z.shiftl 1 (nbits - idx)) (Z.shiftr bits (cnt + idx - idx)))) l acc) j
    = Z.testbit acc j || (existsb (fun i => j =? nbits - i) l && Z.testbit (Z.shiftr bits cnt) j)).
  { induction l as [|i l IH]; intros acc HI; cbn [fold_left existsb]; [now rewrite orb_false_r|].
    rewrite IH by (intros; apply HI; now right).
    rewrite Z.lor_spec, Z.land_spec, Z.shiftl_1_l.
    assert (0 <= i <= nbits) by (apply HI; now left).
    rewrite Z.pow2_bits_eqb by lia. rewrite (Z.eqb_sym (nbits - i) j).
    replace (cnt + i - i) with cnt by lia.
    destruct (Z.testbit acc j), (j =? nbits - i), (Z.testbit (Z.shiftr bits cnt) j), (existsb _ l); auto. }
  rewrite H. 2: { intros i Hi. apply zrange_in in Hi. lia. }
  rewrite Z.bits_0. cbn [orb]. rewrite Z.land_spec. rewrite andb_comm. f_equal.
  destruct (Z.lt_ge_cases j (nbits + 1)).
  - rewrite Z.ones_spec_low by lia. apply existsb_exists. exists (nbits - j).
    split; [apply zrange_in; lia|lia].
  - rewrite Z.ones_spec_high by lia. apply Bool.not_true_iff_false. intros HE.
    apply existsb_exists in HE. destruct HE as (i & Hi & E). apply zrange_in in Hi. lia.
Qed.
