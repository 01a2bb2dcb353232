From Coq Require Import ZArith List Bool Arith Lia ZifyBool ZifyNat.
From Verif Require Import PyList PackerModel PackerSpec.
Import ListNotations.
Open Scope Z_scope.

(** ** flip_bit_order *)
Lemma num_bits_pos v : 1 <= num_bits v.
Proof. destruct v; cbn; lia. Qed.

Lemma flip_while_pos : forall p acc, 0 <= acc ->
  exists n, forall fuel, (n <= fuel)%nat -> flip_while fuel (Zpos p) acc = Some (flip_pos p acc).
Proof.
  induction p as [p IH|p IH|]; intros acc Ha.
  - destruct (IH (2 * acc + 1)) as [n Hn]; [lia|]. exists (S n). intros [|fuel] Hf; [lia|].
    cbn [flip_while flip_pos]. replace (Z.pos p~1 =? 0) with false by lia.
    rewrite <- (Hn fuel) by lia. try (f_equal; now destruct acc).
  - destruct (IH (2 * acc)) as [n Hn]; [lia|]. exists (S n). intros [|fuel] Hf; [lia|].
    cbn [flip_while flip_pos]. replace (Z.pos p~0 =? 0) with false by lia.
    rewrite <- (Hn fuel) by lia. try (f_equal; now destruct acc).
  - exists 2%nat. intros [|[|fuel]] Hf; [lia|lia|]. cbn. try (f_equal; now destruct acc).
Qed.

Lemma flip_while_neg : forall fuel v acc, v < 0 -> flip_while fuel v acc = None.
Proof.
  induction fuel as [|fuel IH]; intros v acc Hv; cbn [flip_while]; auto.
  replace (v =? 0) with false by lia. apply IH.
  rewrite Z.shiftr_div_pow2 by lia. apply Z.div_lt_upper_bound; lia.
Qed.

Lemma flip_pos_testbit : forall p acc i, 0 <= acc -> 0 <= i ->
  Z.testbit (flip_pos p acc) i =
  if i <? Zpos (Pos.size p) then Z.testbit (Zpos p) (Zpos (Pos.size p) - 1 - i)
  else Z.testbit acc (i - Zpos (Pos.size p)).
Proof.
  induction p as [p IH|p IH|]; intros acc i Ha Hi; cbn [flip_pos Pos.size].
  - rewrite IH by lia. rewrite Pos2Z.inj_succ.
    destruct (i <? Z.pos (Pos.size p)) eqn:E.
    + replace (i <? _) with true by lia.
      replace (Z.succ (Z.pos (Pos.size p)) - 1 - i) with (Z.succ (Z.pos (Pos.size p) - 1 - i)) by lia.
      rewrite Pos2Z.inj_xI. now rewrite Z.testbit_odd_succ by lia.
    + destruct (i <? Z.succ _) eqn:E2.
      * replace (i - Z.pos (Pos.size p)) with 0 by lia.
        replace (Z.succ (Z.pos (Pos.size p)) - 1 - i) with 0 by lia.
        rewrite Z.testbit_odd_0. reflexivity.
      * replace (i - Z.pos (Pos.size p)) with (Z.succ (i - Z.succ (Z.pos (Pos.size p)))) by lia.
        rewrite Z.testbit_odd_succ by lia. reflexivity.
  - rewrite IH by lia. rewrite Pos2Z.inj_succ.
    destruct (i <? Z.pos (Pos.size p)) eqn:E.
    + replace (i <? _) with true by lia.
      replace (Z.succ (Z.pos (Pos.size p)) - 1 - i) with (Z.succ (Z.pos (Pos.size p) - 1 - i)) by lia.
      rewrite Pos2Z.inj_xO. now rewrite Z.testbit_even_succ by lia.
    + destruct (i <? Z.succ _) eqn:E2.
      * replace (i - Z.pos (Pos.size p)) with 0 by lia.
        replace (Z.succ (Z.pos (Pos.size p)) - 1 - i) with 0 by lia.
        rewrite Z.testbit_even_0. reflexivity.
      * replace (i - Z.pos (Pos.size p)) with (Z.succ (i - Z.succ (Z.pos (Pos.size p)))) by lia.
        rewrite Z.testbit_even_succ by lia. reflexivity.
  - destruct (i <? 1) eqn:E.
    + replace i with 0 by lia. rewrite Z.testbit_odd_0. reflexivity.
    + replace i with (Z.succ (i - 1)) at 1 by lia. now rewrite Z.testbit_odd_succ by lia.
Qed.

Lemma pos_size_bound p n : Zpos p < 2 ^ n -> Zpos (Pos.size p) <= n.
Proof.
  intros H. assert (0 <= n). { destruct (Z.lt_ge_cases n 0); auto. rewrite Z.pow_neg_r in H by auto. lia. }
  pose proof (Pos.size_le p) as H1.
  assert (H2 : 2 ^ (Zpos (Pos.size p)) <= 2 * Zpos p).
  { rewrite <- Pos2Z.inj_pow. lia. }
  destruct (Z.le_gt_cases (Zpos (Pos.size p)) n); auto.
  assert (2 ^ (n + 1) <= 2 ^ (Z.pos (Pos.size p))) by (apply Z.pow_le_mono_r; lia).
  rewrite Z.pow_add_r in * by lia. lia.
Qed.

Lemma pos_size_gt p : Zpos p < 2 ^ Zpos (Pos.size p).
Proof. rewrite <- Pos2Z.inj_pow. apply Pos.size_gt. Qed.

Lemma testbit_above v n i : 0 <= v < 2 ^ n -> n <= i -> Z.testbit v i = false.
Proof.
  intros [H1 H2] H. destruct (Z.eq_dec v 0) as [->|]; [apply Z.bits_0|].
  apply Z.bits_above_log2; [lia|]. apply Z.log2_lt_pow2; [lia|].
  apply Z.lt_le_trans with (2 ^ n); auto.
  assert (0 <= n). { destruct (Z.lt_ge_cases n 0); auto. rewrite Z.pow_neg_r in H2 by auto. lia. }
  apply Z.pow_le_mono_r; lia.
Qed.

Lemma bits_bound v n : 0 <= v -> 0 <= n -> (forall i, n <= i -> Z.testbit v i = false) -> v < 2 ^ n.
Proof.
  intros H Hn Hb. destruct (Z.eq_dec v 0) as [->|]; [apply Z.pow_pos_nonneg; lia|].
  apply Z.log2_lt_pow2; [lia|]. destruct (Z.lt_ge_cases (Z.log2 v) n) as [|HG]; auto.
  specialize (Hb _ HG). rewrite Z.bit_log2 in Hb by lia. discriminate.
Qed.

Lemma flip_pos_nonneg p : forall acc, 0 <= acc -> 0 <= flip_pos p acc.
Proof. induction p; intros; cbn [flip_pos]; try lia; apply IHp; lia. Qed.

Lemma flip_ok v size : 0 <= v < 2 ^ size -> 0 < size ->
  exists f, flip_bit_order v size = Ok f /\ 0 <= f < 2 ^ size /\
    forall i, 0 <= i -> Z.testbit f i = if i <? size then Z.testbit v (size - 1 - i) else false.
Proof.
  intros Hv Hs. destruct v as [|p|p]; [| |lia].
  - exists 0. cbn. replace (size =? -1) with false by lia.
    replace (0 <=? size - 1) with true by lia. rewrite Z.shiftl_0_l. split; auto.
    split; [lia|]. intros i Hi. rewrite !Z.bits_0. now destruct (i <? size).
  - assert (HL : Zpos (Pos.size p) <= size) by now apply pos_size_bound.
    exists (Z.shiftl (flip_pos p 0) (size - Zpos (Pos.size p))).
    cbn [flip_bit_order num_bits]. replace (size =? -1) with false by lia.
    replace (0 <=? _) with true by lia. split; auto.
    assert (HB : forall i, 0 <= i -> Z.testbit (Z.shiftl (flip_pos p 0) (size - Zpos (Pos.size p))) i =
      if i <? size then Z.testbit (Zpos p) (size - 1 - i) else false).
    { intros i Hi. rewrite Z.shiftl_spec by lia.
      destruct (Z.lt_ge_cases i (size - Z.pos (Pos.size p))).
      - rewrite Z.testbit_neg_r by lia. replace (i <? size) with true by lia.
        symmetry. apply testbit_above with (Z.pos (Pos.size p)); [|lia].
        split; [lia|apply pos_size_gt].
      - rewrite flip_pos_testbit by lia. rewrite Z.bits_0.
        destruct (i <? size) eqn:E.
        + replace (_ <? _) with true by lia. f_equal. lia.
        + replace (_ <? _) with false by lia. reflexivity. }
    split; auto. split.
    + apply Z.shiftl_nonneg. apply flip_pos_nonneg. lia.
    + apply bits_bound; try lia.
      * apply Z.shiftl_nonneg. apply flip_pos_nonneg. lia.
      * intros i Hi. rewrite HB by lia. now replace (i <? size) with false by lia.
Qed.

Lemma flip_too_wide v size : 0 <= v -> size <> -1 -> size < num_bits v -> flip_bit_order v size = Raise.
Proof.
  intros H1 H2 H3. destruct v; cbn [flip_bit_order]; [| |lia].
  - cbn in H3. replace (size =? -1) with false by lia. cbn [num_bits]. now replace (0 <=? _) with false by lia.
  - replace (size =? -1) with false by lia. now replace (0 <=? _) with false by lia.
Qed.

(** ** Packing *)
Lemma low_bits_length size v : length (low_bits size v) = Z.to_nat size.
Proof. unfold low_bits. now rewrite map_length, seq_length. Qed.
Lemma field_bits_length b size v : length (field_bits b size v) = Z.to_nat size.
Proof. unfold field_bits. destruct b; [rewrite rev_length|]; apply low_bits_length. Qed.

Lemma low_bits_nth size v i : (i < Z.to_nat size)%nat -> nth i (low_bits size v) false = Z.testbit v (Z.of_nat i).
Proof.
  intros H. unfold low_bits.
  change false with ((fun i => Z.testbit 0 (Z.of_nat i)) 0%nat).
  rewrite nth_indep with (d' := (fun i => Z.testbit v (Z.of_nat i)) 0%nat)
    by (rewrite map_length, seq_length; auto).
  rewrite map_nth with (f := fun i => Z.testbit v (Z.of_nat i)). rewrite seq_nth by auto. reflexivity.
Qed.

Lemma field_bits_nth b size v i : 0 <= i < size ->
  nth (Z.to_nat i) (field_bits b size v) false = Z.testbit v (if b then size - 1 - i else i).
Proof.
  intros H. unfold field_bits. destruct b.
  - rewrite rev_nth by (rewrite low_bits_length; lia). rewrite low_bits_length.
    rewrite low_bits_nth by lia. f_equal. lia.
  - rewrite low_bits_nth by lia. f_equal. lia.
Qed.

(** What enters the accumulator for a fitting field. *)
Lemma enter_ok (b : bool) size v : fits b (size, v) ->
  exists f, (if b then flip_bit_order v size else Ok v) = Ok f /\ 0 <= f < 2 ^ size /\
    is_stream (field_bits b size v) f.
Proof.
  intros [Hv Hs]; cbn in *. destruct b.
  - destruct (flip_ok v size) as (f & E & Hf & Hb); auto. exists f. split; auto. split; auto.
    intros i Hi. rewrite Hb by auto. destruct (i <? size) eqn:E2.
    + rewrite field_bits_nth by lia. auto.
    + rewrite nth_overflow; auto. rewrite field_bits_length. lia.
  - exists v. split; auto. split; auto. intros i Hi.
    destruct (Z.lt_ge_cases i size).
    + rewrite field_bits_nth by lia. auto.
    + rewrite nth_overflow by (rewrite field_bits_length; lia). apply testbit_above with size; auto.
Qed.

Lemma append_stream l m l' f : 0 <= f -> is_stream l m -> is_stream l' f ->
  is_stream (l ++ l') (Z.lor m (Z.shiftl f (Z.of_nat (length l)))).
Proof.
  intros Hf H1 H2 i Hi. rewrite Z.lor_spec, H1 by auto.
  destruct (Z.lt_ge_cases i (Z.of_nat (length l))).
  - rewrite Z.shiftl_spec_low by auto. rewrite orb_false_r. now rewrite app_nth1 by lia.
  - rewrite Z.shiftl_spec_high by lia. rewrite H2 by lia.
    rewrite app_nth2 by lia. rewrite nth_overflow by lia. cbn. f_equal. lia.
Qed.

Lemma pack_fields_app p fs gs : pack_fields p (fs ++ gs) = bind (pack_fields p fs) (fun q => pack_fields q gs).
Proof.
  revert p. induction fs as [|[s v] fs IH]; intros p; cbn [pack_fields app bind]; auto.
  destruct (pack_field_int p v s); cbn; auto.
Qed.

Lemma pack_fields_gen fs : forall p l, Forall (fits (be p)) fs ->
  is_stream l (m_bits p) -> count p = Z.of_nat (length l) ->
  exists q, pack_fields p fs = Ok q /\ be q = be p /\ psize q = psize p /\
    is_stream (l ++ stream (be p) fs) (m_bits q) /\
    count q = Z.of_nat (length (l ++ stream (be p) fs)).
Proof.
  induction fs as [|[s v] fs IH]; intros p l HF HS HC.
  - exists p. cbn. rewrite app_nil_r. auto.
  - inversion HF as [|? ? Hf HF']; subst. cbn [pack_fields]. unfold pack_field_int.
    destruct (enter_ok (be p) s v Hf) as (f & -> & Hfr & Hfs). cbn [bind].
    edestruct (IH (Pk (be p) (count p + s) (Z.lor (m_bits p) (Z.shiftl f (count p))) (psize p))
       (l ++ field_bits (be p) s v)) as (q & E & Hbe & Hps & Hst & Hco); cbn [be m_bits count psize]; auto.
    + rewrite HC. apply append_stream; auto. lia.
    + rewrite app_length, field_bits_length, HC. destruct Hf as [_ Hs]; cbn in Hs. destruct (be p); lia.
    + exists q. cbn [be] in *. rewrite E. split; auto. split; auto. split; auto.
      unfold stream. cbn [flat_map fst snd]. fold (stream (be p) fs). rewrite app_assoc. auto.
Qed.

Lemma stream_length b fs : Forall (fits b) fs -> Z.of_nat (length (stream b fs)) = total fs.
Proof.
  induction 1 as [|[s v] fs Hf HF IH]; [reflexivity|].
  cbn [total fold_right fst]. fold (total fs). rewrite <- IH.
  unfold stream in *. cbn [flat_map fst snd]. rewrite app_length, field_bits_length.
  destruct Hf as [_ Hs]; cbn in Hs. destruct b; lia.
Qed.

(** ** Unpacking *)
Lemma fold_sel m (sels : list Z) f : forall acc j, 0 <= j ->
  (forall i, In i sels -> 0 <= f i) ->
  Z.testbit (fold_left (fun acc i => Z.lor acc (Z.land m (Z.shiftl 1 (f i)))) sels acc) j =
  Z.testbit acc j || (existsb (fun i => j =? f i) sels && Z.testbit m j).
Proof.
  induction sels as [|s sels IH]; intros acc j Hj Hs; cbn [fold_left existsb].
  - now rewrite orb_false_r.
  - rewrite IH by (auto; intros; apply Hs; now right).
    rewrite Z.lor_spec, Z.land_spec, Z.shiftl_1_l.
    rewrite Z.pow2_bits_eqb by (apply Hs; now left). rewrite (Z.eqb_sym (f s) j).
    destruct (Z.testbit acc j), (Z.testbit m j), (j =? f s), (existsb (fun i => j =? f i) sels); auto.
Qed.

Lemma fold_sel_nonneg m (sels : list Z) f : forall acc, 0 <= m -> 0 <= acc ->
  0 <= fold_left (fun acc i => Z.lor acc (Z.land m (Z.shiftl 1 (f i)))) sels acc.
Proof.
  induction sels as [|s sels IH]; intros acc Hm Ha; cbn; auto. apply IH; auto.
  apply Z.lor_nonneg. split; auto. apply Z.land_nonneg. now left.
Qed.

Lemma zrange_in n i : In i (zrange n) <-> 0 <= i < n.
Proof.
  unfold zrange. rewrite in_map_iff. split.
  - intros (x & <- & H). apply in_seq in H. lia.
  - intros H. exists (Z.to_nat i). split; [lia|]. apply in_seq. lia.
Qed.

Lemma shiftr_testbit_ok a c j : 0 <= j -> 0 <= c -> Z.testbit (Z.shiftr a c) j = Z.testbit a (j + c).
Proof. intros. now rewrite Z.shiftr_spec by lia. Qed.

(** Field at position [count] of a stream. *)
Lemma unpack_ok p size : 0 <= m_bits p -> 0 <= count p -> 0 <= size -> (be p = true -> 0 < size) ->
  count p + size <= psize p ->
  exists v, unpack_field_int p size = Ok (Pk (be p) (count p + size) (m_bits p) (psize p), v) /\
    0 <= v < 2 ^ size /\
    forall i, 0 <= i < size ->
      Z.testbit v i = Z.testbit (m_bits p) (count p + (if be p then size - 1 - i else i)).
Proof.
  intros Hm Hc Hs Hb He. unfold unpack_field_int, enough_bits.
  replace (negb (psize p - count p <? size)) with true by lia.
  set (acc := fold_left _ _ _).
  assert (HA : forall j, 0 <= j -> Z.testbit acc j =
     ((count p <=? j) && (j <? count p + size)) && Z.testbit (m_bits p) j).
  { intros j Hj. unfold acc.
    rewrite (fold_sel (m_bits p) (zrange size)
       (fun i => if be p then count p + size - i - 1 else count p + size - size + i)); auto.
    - rewrite Z.bits_0. cbn [orb]. f_equal. apply Bool.eq_true_iff_eq.
      rewrite existsb_exists. split.
      + intros (i & Hi & E). apply zrange_in in Hi. destruct (be p); lia.
      + intros H. exists (if be p then count p + size - j - 1 else j - count p).
        split; [apply zrange_in|]; destruct (be p); lia.
    - intros i Hi. apply zrange_in in Hi. destruct (be p); lia. }
  assert (HN : 0 <= acc).
  { apply (fold_sel_nonneg (m_bits p) (zrange size)
       (fun i => if be p then count p + size - i - 1 else count p + size - size + i)); auto. lia. }
  assert (HV : 0 <= Z.shiftr acc (count p) < 2 ^ size).
  { split; [apply Z.shiftr_nonneg; auto|]. apply bits_bound; auto.
    - apply Z.shiftr_nonneg; auto.
    - intros i Hi. rewrite shiftr_testbit_ok by lia. rewrite HA by lia.
      replace (i + count p <? _) with false by lia. now rewrite andb_false_r. }
  destruct (be p) eqn:EB.
  - destruct (flip_ok (Z.shiftr acc (count p)) size) as (f & -> & Hf & Hfb); auto.
    exists f. cbn [bind]. split; auto. split; auto. intros i Hi. rewrite Hfb by lia.
    replace (i <? size) with true by lia. rewrite shiftr_testbit_ok by lia. rewrite HA by lia.
    replace (count p <=? _) with true by lia. replace (_ <? count p + size) with true by lia.
    cbn [andb]. f_equal. lia.
  - exists (Z.shiftr acc (count p)). cbn [bind]. split; auto. split; auto. intros i Hi.
    rewrite shiftr_testbit_ok by lia. rewrite HA by lia.
    replace (count p <=? _) with true by lia. replace (_ <? count p + size) with true by lia.
    cbn [andb]. f_equal. lia.
Qed.

Lemma unpack_short p size : 0 <= size -> (be p = true -> 0 < size) -> psize p < count p + size ->
  unpack_field_int p size = Ok (p, 0).
Proof.
  intros Hs Hb H. unfold unpack_field_int, enough_bits.
  replace (negb (psize p - count p <? size)) with false by lia.
  rewrite Z.shiftr_0_l. destruct (be p) eqn:E; cbn [bind]; auto.
  specialize (Hb eq_refl). cbn [flip_bit_order]. replace (size =? -1) with false by lia.
  cbn [num_bits]. replace (0 <=? size - 1) with true by lia. now rewrite Z.shiftl_0_l.
Qed.

Lemma bits_eq_bounded a b n : 0 <= a < 2 ^ n -> 0 <= b < 2 ^ n ->
  (forall i, 0 <= i < n -> Z.testbit a i = Z.testbit b i) -> a = b.
Proof.
  intros Ha Hb H. apply Z.bits_inj'. intros i Hi. destruct (Z.lt_ge_cases i n).
  - apply H. lia.
  - now rewrite !(testbit_above _ n) by auto.
Qed.

Lemma stream_nonneg l n : is_stream l n -> 0 <= n.
Proof.
  intros H. apply Z.bits_iff_nonneg_ex. exists (Z.of_nat (length l)). intros m Hm.
  rewrite H by lia. apply nth_overflow. lia.
Qed.

Lemma unpack_fields_ok fs : forall p l r,
  Forall (fits (be p)) fs -> is_stream (l ++ stream (be p) fs ++ r) (m_bits p) ->
  count p = Z.of_nat (length l) -> Z.of_nat (length (l ++ stream (be p) fs)) <= psize p ->
  unpack_fields p (map fst fs) =
    Ok (Pk (be p) (count p + total fs) (m_bits p) (psize p), map snd fs).
Proof.
  induction fs as [|[s v] fs IH]; intros p l r HF HS HC HP.
  - cbn. rewrite Z.add_0_r. now destruct p.
  - inversion HF as [|? ? Hf HF']; subst. destruct Hf as [Hv Hs]. cbn [fst snd] in *.
    assert (Hs0 : 0 <= s) by (destruct (be p); lia).
    unfold stream in HS, HP. cbn [flat_map fst snd] in HS, HP. fold (stream (be p) fs) in HS, HP.
    cbn [map fst snd unpack_fields total fold_right].
    destruct (unpack_ok p s) as (v' & -> & Hv' & Hb'); auto.
    + eapply stream_nonneg; eauto.
    + lia.
    + intros E. rewrite E in Hs. auto.
    + rewrite !app_length, field_bits_length in HP. lia.
    + assert (v' = v) as ->.
      { apply bits_eq_bounded with s; auto. intros i Hi. rewrite Hb' by auto.
        rewrite HS by (destruct (be p); lia). rewrite HC.
        rewrite app_nth2 by (destruct (be p); lia).
        rewrite <- app_assoc. rewrite app_nth1 by (rewrite field_bits_length; destruct (be p); lia).
        replace (Z.to_nat _ - length l)%nat with (Z.to_nat (if be p then s - 1 - i else i)) by (destruct (be p); lia).
        rewrite field_bits_nth by (destruct (be p); lia). f_equal. destruct (be p); lia. }
      cbn [bind]. rewrite (IH _ (l ++ field_bits (be p) s v) r); cbn [be m_bits count psize bind]; auto.
      * do 3 f_equal. change (fold_right (fun f n => fst f + n) 0 fs) with (total fs). lia.
      * rewrite <- !app_assoc in *. auto.
      * rewrite app_length, field_bits_length, HC. lia.
      * rewrite <- !app_assoc in *. auto.
Qed.

Lemma round_trip b fs : Forall (fits b) fs ->
  exists q, pack_fields (Pk b 0 0 0) fs = Ok q /\
    unpack_fields (set_packed_size q) (map fst fs) =
      Ok (Pk b (total fs) (m_bits q) (total fs), map snd fs).
Proof.
  intros HF. destruct (pack_fields_gen fs (Pk b 0 0 0) []) as (q & E & Hbe & Hps & HS & HC); auto.
  { intros i Hi. cbn. rewrite Z.bits_0. now destruct (Z.to_nat i). }
  cbn [app be] in *. exists q. split; auto. rewrite stream_length in HC by auto.
  unfold set_packed_size. rewrite Hbe.
  rewrite (unpack_fields_ok fs _ [] []); cbn [be m_bits count psize app]; auto.
  - now rewrite Z.add_0_l, HC.
  - now rewrite app_nil_r.
  - rewrite stream_length by auto. lia.
Qed.

(** Position invariant over any unpack history *)
Lemma unpack_pos p size q v : 0 <= size -> 0 <= count p <= psize p ->
  unpack_field_int p size = Ok (q, v) ->
  psize q = psize p /\ m_bits q = m_bits p /\ count p <= count q <= psize q.
Proof.
  intros Hs Hc. unfold unpack_field_int, enough_bits.
  destruct (negb _) eqn:E; intros H.
  - destruct (be p).
    + destruct (flip_bit_order _ _); cbn in H; inversion H; subst; cbn. lia.
    + cbn in H. inversion H; subst; cbn. lia.
  - destruct (be p).
    + destruct (flip_bit_order _ _); cbn in H; inversion H; subst; cbn. lia.
    + cbn in H. inversion H; subst; cbn. lia.
Qed.

Lemma unpack_fields_pos sizes : forall p q vs, Forall (fun s => 0 <= s) sizes ->
  0 <= count p <= psize p -> unpack_fields p sizes = Ok (q, vs) ->
  psize q = psize p /\ m_bits q = m_bits p /\ count p <= count q <= psize q.
Proof.
  induction sizes as [|s sizes IH]; intros p q vs HF HC H; cbn in H.
  - inversion H; subst. lia.
  - inversion HF; subst. destruct (unpack_field_int p s) as [[p1 v]| |] eqn:E1; cbn in H; try discriminate.
    destruct (unpack_fields p1 sizes) as [[p2 vs']| |] eqn:E2; cbn in H; try discriminate.
    inversion H; subst. apply unpack_pos in E1; auto. apply IH in E2; auto; lia.
Qed.
