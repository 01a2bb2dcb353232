(** Properties C12-C17, C72, C73: UVMPacker. *)
From Coq Require Import ZArith List Bool Arith Lia ZifyBool ZifyNat.
From Verif Require Import PyList PackerModel PackerSpec PackerProofs PackerProofs2.
Import ListNotations.
Open Scope Z_scope.

(** C12 *)
Theorem C12_int_round_trip : forall (big : bool) (fs : list (Z * Z)),
  Forall (fits big) fs ->
  exists q, pack_fields (Pk big 0 0 0) fs = Ok q /\
    unpack_fields (set_packed_size q) (map fst fs) =
      Ok (Pk big (total fs) (m_bits q) (total fs), map snd fs).
Proof. exact round_trip. Qed.
Print Assumptions C12_int_round_trip.

Example C12_example :
  let fs := [(8, 6); (3, 0); (1, 1); (70, 2 ^ 69 + 5)] in
  Forall (fits true) fs /\
  (do q <- pack_fields (Pk true 0 0 0) fs; unpack_fields (set_packed_size q) [8; 3; 1; 70])
  = Ok (Pk true 82 (6 * 16 + 2 ^ 11 + 2 ^ 12 + (2 ^ 69 + 2 ^ 67) * 2 ^ 12) 82, [6; 0; 1; 2 ^ 69 + 5]).
Proof. split; [repeat constructor; cbn; lia|vm_compute; reflexivity]. Qed.

(** Zero-width fields: in big-endian mode (the default) packing one raises. *)
Theorem C12_zero_width_limit :
  pack_field_int (Pk true 0 0 0) 0 0 = Raise.
Proof. reflexivity. Qed.
Print Assumptions C12_zero_width_limit.
Theorem C12_zero_width : forall (p : pk) (v : Z), be p = true -> 0 <= v -> pack_field_int p v 0 = Raise.
Proof. intros p v Hb Hv. unfold pack_field_int. rewrite Hb, flip_too_wide; auto; pose proof (num_bits_pos v); lia. Qed.
Print Assumptions C12_zero_width.

(** C13: the bit stream is the concatenation of the fields. *)
Theorem C13_layout : forall (big : bool) (fs : list (Z * Z)),
  Forall (fits big) fs ->
  exists q, pack_fields (Pk big 0 0 0) fs = Ok q /\
    count q = total fs /\
    forall i, 0 <= i -> get_bit q i = Z.b2z (nth (Z.to_nat i) (stream big fs) false).
Proof.
  intros big fs HF.
  destruct (pack_fields_gen fs (Pk big 0 0 0) []) as (q & E & _ & _ & HS & HC); auto.
  { exact nil_stream. }
  cbn [app be] in *. exists q. split; auto. split; [now rewrite HC, stream_length|].
  intros i Hi. rewrite <- HS by auto. unfold get_bit. change 1 with (Z.ones 1).
  rewrite Z.land_ones by lia. rewrite Z.shiftr_div_pow2 by auto. symmetry. now apply Z.testbit_spec'.
Qed.
Print Assumptions C13_layout.

Example C13_example : stream true [(4, 8); (2, 1)] = [true; false; false; false; false; true] /\
  stream false [(4, 8); (2, 1)] = [false; false; false; true; true; false].
Proof. split; reflexivity. Qed.

(** C14 *)
Theorem C14_short_read : forall (p : pk) (size : Z),
  0 <= size -> (be p = true -> 0 < size) -> psize p < count p + size ->
  unpack_field_int p size = Ok (p, 0).
Proof. exact unpack_short. Qed.
Print Assumptions C14_short_read.

Theorem C14_never_past_end : forall (sizes : list Z) (p q : pk) (vs : list Z),
  Forall (fun s => 0 <= s) sizes -> 0 <= count p <= psize p ->
  unpack_fields p sizes = Ok (q, vs) ->
  psize q = psize p /\ m_bits q = m_bits p /\ count p <= count q <= psize q.
Proof. exact unpack_fields_pos. Qed.
Print Assumptions C14_never_past_end.

(** Every history of reads of positive sizes does return. *)
Theorem C14_reads_return : forall (sizes : list Z) (p : pk),
  Forall (fun s => 0 < s) sizes -> 0 <= m_bits p -> 0 <= count p <= psize p ->
  exists q vs, unpack_fields p sizes = Ok (q, vs) /\ length vs = length sizes.
Proof.
  induction sizes as [|s sizes IH]; intros p HF Hm Hc; cbn [unpack_fields].
  - exists p, []. auto.
  - inversion HF as [|? ? Hs HF']; subst.
    assert (exists p1 v, unpack_field_int p s = Ok (p1, v) /\ 0 <= m_bits p1 /\ 0 <= count p1 <= psize p1)
      as (p1 & v & E & H1 & H2).
    { destruct (Z.le_gt_cases (count p + s) (psize p)).
      - destruct (unpack_ok p s) as (v & E & _); try lia.
        eexists _, v. split; [exact E|]. cbn. lia.
      - exists p, 0. split; [apply unpack_short; lia|]. lia. }
    rewrite E. cbn [bind]. destruct (IH p1 HF' H1 H2) as (q & vs & Eq & HL).
    rewrite Eq. cbn [bind]. exists q, (v :: vs). split; auto. cbn. now rewrite HL.
Qed.
Print Assumptions C14_reads_return.

Example C14_example : unpack_fields (Pk true 0 11 6) [4; 3; 2] = Ok (Pk true 6 11 6, [13; 0; 0]).
Proof. vm_compute. reflexivity. Qed.

(** C15. In big-endian mode (the default) strings do not survive: "B" comes back
    as "!" ... *)
Theorem C15_big_endian_limit :
  (do q <- pack_string (Pk true 0 0 0) [66]; Ok (unpack_string (set_packed_size q) 1))
  = Ok (Some (Pk true 8 33 8, [33])).
Proof. vm_compute. reflexivity. Qed.
Print Assumptions C15_big_endian_limit.

(** ... the empty string cannot be packed ... *)
Theorem C15_empty : forall p : pk, pack_string p [] = Raise.
Proof. reflexivity. Qed.
Print Assumptions C15_empty.

(** ... and unpacking a string skips the next 8 bits, so that a following field
    is lost. *)
Theorem C15_following_field_limit :
  (do q <- pack_string (Pk false 0 0 0) [65]; do q <- pack_field_int q 7 8;
   match unpack_string (set_packed_size q) 1 with
   | Some (p, s) => do (p', v) <- unpack_field_int p 8; Ok (s, v)
   | None => Raise end)
  = Ok ([65], 0).
Proof. vm_compute. reflexivity. Qed.
Print Assumptions C15_following_field_limit.

Lemma digits n : forall v, 0 <= v < 256 ^ Z.of_nat n -> exists l, length l = n /\ Forall (fun x => 0 <= x < 256) l /\ bytes_num l = v.
Proof.
  induction n as [|n IH]; intros v Hv.
  - exists []. repeat split; auto. cbn in *. lia.
  - rewrite Nat2Z.inj_succ, Z.pow_succ_r in Hv by lia.
    destruct (IH (v / 256)) as (l & L & F & E).
    { split; [apply Z.div_pos; lia|apply Z.div_lt_upper_bound; lia]. }
    pose proof (Z.mod_pos_bound v 256 ltac:(lia)).
    exists (l ++ [v mod 256]). split; [rewrite app_length; cbn; lia|]. split; [apply Forall_app; split; auto|].
    rewrite bytes_num_snoc, E. pose proof (Z.div_mod v 256 ltac:(lia)). lia.
Qed.
Lemma bytes_num_bound l : Forall (fun x => 0 <= x < 256) l -> 0 <= bytes_num l < 256 ^ zlen l.
Proof.
  intros H. induction l as [|x l IH] using rev_ind; [cbn; lia|]. apply Forall_app in H as [H1 H2]. inversion H2; subst. specialize (IH H1).
  rewrite bytes_num_snoc. unfold zlen in *. rewrite app_length, Nat2Z.inj_add, Z.pow_add_r by lia. change (256 ^ Z.of_nat (length [x])) with 256. nia.
Qed.
Lemma ustr_loop_be b fuel : forall c m sz num nt i acc,
  ustr_loop fuel (Pk b c m sz) num nt i acc = option_map (fun r => (Pk b (count (fst r)) (m_bits (fst r)) (psize (fst r)), snd r)) (ustr_loop fuel (Pk false c m sz) num nt i acc).
Proof.
  induction fuel as [|k IH]; intros; [reflexivity|]. cbn [ustr_loop be count m_bits psize]. change (enough_bits (Pk b c m sz) 8) with (enough_bits (Pk false c m sz) 8).
  destruct (_ && _); [apply IH|reflexivity].
Qed.
Lemma unpack_string_be b c m sz num : unpack_string (Pk b c m sz) num = option_map (fun r => (Pk b (count (fst r)) (m_bits (fst r)) (psize (fst r)), snd r)) (unpack_string (Pk false c m sz) num).
Proof.
  unfold unpack_string. cbn [psize count]. rewrite (ustr_loop_be b). destruct (ustr_loop _ (Pk false c m sz) num _ 0 []) as [[q l]|]; [|reflexivity]. cbn [option_map fst snd].
  change (enough_bits (Pk b (count q) (m_bits q) (psize q)) 8) with (enough_bits q 8). destruct (enough_bits q 8); reflexivity.
Qed.
(** In big-endian mode (the default) what comes back is the string with the significant
    bits of the whole string, read as one number, in reverse order. *)
Theorem C15_big_endian : forall bytes : list Z, bytes <> [] -> Forall (fun x => 0 <= x < 256) bytes ->
  exists q l, pack_string (Pk true 0 0 0) bytes = Ok q /\
    unpack_string (set_packed_size q) (zlen bytes) = Some (Pk true (8 * zlen bytes) (m_bits q) (8 * zlen bytes), l) /\
    length l = length bytes /\ Forall (fun x => 0 <= x < 256) l /\
    let n := num_bits (bytes_num bytes) in
    forall i, 0 <= i -> Z.testbit (bytes_num l) i = (i <? n) && Z.testbit (bytes_num bytes) (n - 1 - i).
Proof.
  intros bytes Hne HF. pose proof (bytes_num_bound bytes HF) as HB. set (v := bytes_num bytes) in *.
  set (f := match v with Zpos p => flip_pos p 0 | _ => 0 end).
  assert (Hf : forall i, 0 <= i -> Z.testbit f i = (i <? num_bits v) && Z.testbit v (num_bits v - 1 - i)).
  { intros i Hi. unfold f. destruct v as [|p|p]; [rewrite !Z.bits_0; now rewrite andb_false_r| |lia]. rewrite flip_pos_testbit by lia. cbn [num_bits]. rewrite Z.bits_0. now destruct (i <? _). }
  assert (Hf0 : 0 <= f) by (unfold f; destruct v; try lia; apply flip_pos_nonneg; lia).
  assert (Hfb : f < 256 ^ zlen bytes).
  { replace 256 with (2 ^ 8) in * by reflexivity. unfold zlen in *. rewrite <- Z.pow_mul_r in * by lia.
    apply bits_bound; try lia. intros i Hi. rewrite Hf by lia. destruct v as [|p|p]; [now rewrite Z.bits_0, andb_false_r| |lia].
    cbn [num_bits]. assert (Zpos (Pos.size p) <= 8 * Z.of_nat (length bytes)) by (apply pos_size_bound; lia). now replace (i <? _) with false by lia. }
  destruct (digits (length bytes) f) as (l & L & FL & E); [split; [exact Hf0|exact Hfb]|].
  assert (Hl : l <> []) by (destruct l; [destruct bytes; [congruence|discriminate]|congruence]).
  destruct (string_round_trip [] l [] false) as (q1 & q2 & q3 & E1 & E2 & E3 & _ & E5); auto; [easy|].
  cbn [pack_fields] in E1, E3. injection E1 as <-. injection E3 as <-.
  assert (Hq : pack_string (Pk true 0 0 0) bytes = Ok (Pk true (8 * zlen bytes) (Z.lor 0 (Z.shiftl f 0)) 0)).
  { unfold pack_string. destruct bytes as [|b0 bs]; [congruence|]. fold v. cbn [be]. unfold flip_bit_order. unfold f. destruct v as [|p|p]; [reflexivity|reflexivity|lia]. }
  exists (Pk true (8 * zlen bytes) (Z.lor 0 (Z.shiftl f 0)) 0), l. split; [exact Hq|]. split; [|rewrite E; repeat split; auto].
  assert (Eq2 : q2 = Pk false (8 * zlen l) (Z.lor 0 (Z.shiftl f 0)) 0).
  { unfold pack_string in E2. destruct l; [congruence|]. cbn [be bind count m_bits psize] in E2. injection E2 as <-. rewrite E. reflexivity. }
  subst q2. cbn [m_bits total fold_right] in E5. assert (Hz : zlen l = zlen bytes) by (unfold zlen; now rewrite L). rewrite Hz in E5.
  unfold set_packed_size. cbn [be m_bits count]. replace (0 + 8 * zlen bytes + 0) with (8 * zlen bytes) in E5 by lia.
  rewrite unpack_string_be, E5. cbn [option_map fst snd count m_bits psize]. replace (0 <? 8) with true by reflexivity. do 3 f_equal. lia.
Qed.
Print Assumptions C15_big_endian.

(** What holds in little-endian mode, for any fields before and after: the
    string itself is restored, whether its length is given (nt = false) or it is
    taken as the last, null-terminated item (nt = true); the position moves on
    by the string, and by 8 more when at least 8 bits follow. *)
Theorem C15_little_endian : forall (pre : list (Z * Z)) (bytes : list Z) (post : list (Z * Z)) (nt : bool),
  Forall (fits false) pre -> Forall (fits false) post -> bytes <> [] ->
  Forall (fun x => 0 <= x < 256) bytes ->
  (nt = true -> Forall (fun x => x <> 0) bytes /\ total post < 8) ->
  exists q1 q2 q3, pack_fields (Pk false 0 0 0) pre = Ok q1 /\ pack_string q1 bytes = Ok q2 /\
    pack_fields q2 post = Ok q3 /\
    let size := total pre + 8 * zlen bytes + total post in
    unpack_fields (set_packed_size q3) (map fst pre) =
      Ok (Pk false (total pre) (m_bits q3) size, map snd pre) /\
    unpack_string (Pk false (total pre) (m_bits q3) size) (if nt then -1 else zlen bytes) =
      Some (Pk false (total pre + 8 * zlen bytes + (if total post <? 8 then 0 else 8)) (m_bits q3) size, bytes).
Proof. exact string_round_trip. Qed.
Print Assumptions C15_little_endian.

Example C15_example :
  (do q <- pack_fields (Pk false 0 0 0) [(3, 5)]; do q <- pack_string q [72; 105]; do q <- pack_fields q [(4, 9)];
   do (p, v) <- unpack_fields (set_packed_size q) [3]; Ok (v, unpack_string p 2))
  = Ok ([5], Some (Pk false 19 (5 + 8 * (105 + 256 * 72) + 2 ^ 19 * 9) 23, [72; 105])).
Proof. vm_compute. reflexivity. Qed.

(** C16. Arrays are read from bit 0 of the stream, not from the position. *)
Theorem C16_array_after_field_limit :
  (do q <- pack_fields (Pk false 0 0 0) [(8, 1)]; do q <- pack_bytes q [2; 3] (-1);
   do (p, v) <- unpack_fields (set_packed_size q) [8];
   do (p', l) <- unpack_bytes p [0; 0] (-1); Ok l) = Ok [1; 2].
Proof. vm_compute. reflexivity. Qed.
Print Assumptions C16_array_after_field_limit.

Theorem C16_position_ignored : forall (w : Z) (big : bool) (c m size : Z) (value : list Z),
  0 <= c -> c + zlen value * w <= size ->
  unpack_arr w (Pk big c m size) value (-1) =
    (do (_, l) <- unpack_arr w (Pk big 0 m size) value (-1); Ok (Pk big (c + zlen value * w) m size, l)).
Proof.
  intros w big c m size value Hc Hs. unfold unpack_arr. replace (-1 <? 0) with true by lia. replace (zlen value * w <? zlen value * w) with false by lia.
  unfold enough_bits. cbn [be count m_bits psize]. replace (negb (size - c <? _)) with true by lia. replace (negb (size - 0 <? _)) with true by lia.
  assert (G : forall rest value, unpack_arr_loop w (Pk big c m size) rest value = unpack_arr_loop w (Pk big 0 m size) rest value).
  { clear. induction rest as [|b rest IH]; intros value; [reflexivity|]. cbn [unpack_arr_loop be m_bits]. destruct big; [|apply IH]. destruct (flip_bit_order _ w); cbn [bind]; auto. }
  rewrite G. destruct (unpack_arr_loop _ _ _ _); reflexivity.
Qed.
Print Assumptions C16_position_ignored.

(** At the start of the stream they are restored, in both modes, and the fields
    that follow too. [w] is 8 for bytes, 32 for ints. *)
Theorem C16_array_first : forall (w : Z) (big : bool) (arr : list Z) (fs : list (Z * Z)) (value : list Z),
  0 < w -> Forall (fun x => 0 <= x < 2 ^ w) arr ->
  Forall (fits big) fs -> length value = length arr ->
  exists q q', pack_arr w (Pk big 0 0 0) arr (-1) = Ok q /\ pack_fields q fs = Ok q' /\
    unpack_arr w (set_packed_size q') value (-1) =
      Ok (Pk big (zlen arr * w) (m_bits q') (zlen arr * w + total fs), arr) /\
    unpack_fields (Pk big (zlen arr * w) (m_bits q') (zlen arr * w + total fs)) (map fst fs) =
      Ok (Pk big (zlen arr * w + total fs) (m_bits q') (zlen arr * w + total fs), map snd fs).
Proof. exact arr_round_trip. Qed.
Print Assumptions C16_array_first.

(** For bytes and for ints. *)
Theorem C16_bytes : forall (big : bool) (arr value : list Z), Forall (fun x => 0 <= x < 256) arr -> length value = length arr ->
  exists q, pack_bytes (Pk big 0 0 0) arr (-1) = Ok q /\ count q = zlen arr * 8 /\
    unpack_bytes (set_packed_size q) value (-1) = Ok (Pk big (zlen arr * 8) (m_bits q) (zlen arr * 8), arr).
Proof.
  intros big arr value A L. destruct (arr_round_trip 8 big arr [] value ltac:(lia) A ltac:(constructor) L) as (q & q' & P & P' & U & _).
  cbn in P'. injection P' as <-. exists q. split; [exact P|]. unfold unpack_bytes. rewrite U. cbn [total map fold_right]. rewrite Z.add_0_r. split; [|reflexivity].
  revert U. unfold unpack_arr, set_packed_size. cbn [be count m_bits psize].
  replace (-1 <? 0) with true by lia. rewrite Z.ltb_irrefl. destruct (enough_bits _ _).
  - destruct (unpack_arr_loop _ _ _ _); cbn [bind]; intros H; try discriminate. injection H as H0 _. cbn in H0. lia.
  - intros H. injection H as H0 _. cbn in H0. lia.
Qed.
Print Assumptions C16_bytes.
Theorem C16_ints : forall (big : bool) (arr value : list Z), Forall (fun x => 0 <= x < 2 ^ 32) arr -> length value = length arr ->
  exists q, pack_ints (Pk big 0 0 0) arr (-1) = Ok q /\ count q = zlen arr * 32 /\
    unpack_ints (set_packed_size q) value (-1) = Ok (Pk big (zlen arr * 32) (m_bits q) (zlen arr * 32), arr).
Proof.
  intros big arr value A L. destruct (arr_round_trip 32 big arr [] value ltac:(lia) A ltac:(constructor) L) as (q & q' & P & P' & U & _).
  cbn in P'. injection P' as <-. exists q. split; [exact P|]. unfold unpack_ints. rewrite U. cbn [total map fold_right]. rewrite Z.add_0_r. split; [|reflexivity].
  revert U. unfold unpack_arr, set_packed_size. cbn [be count m_bits psize].
  replace (-1 <? 0) with true by lia. rewrite Z.ltb_irrefl. destruct (enough_bits _ _).
  - destruct (unpack_arr_loop _ _ _ _); cbn [bind]; intros H; try discriminate. injection H as H0 _. cbn in H0. lia.
  - intros H. injection H as H0 _. cbn in H0. lia.
Qed.
Print Assumptions C16_ints.
(** A size that is given does not limit what is packed or unpacked: up to the size of the array,
    the whole array is (but the position moves on by that size only when unpacking); beyond it,
    nothing is. *)
Theorem C16_pack_size : forall (p : pk) (arr : list Z) (size : Z),
  (size <= zlen arr * 8 -> pack_bytes p arr size = pack_bytes p arr (-1)) /\ (zlen arr * 8 < size -> pack_bytes p arr size = Ok p) /\
  (size <= zlen arr * 32 -> pack_ints p arr size = pack_ints p arr (-1)) /\ (zlen arr * 32 < size -> pack_ints p arr size = Ok p).
Proof.
  intros p arr size. unfold pack_bytes, pack_ints, pack_arr, zlen.
  repeat split; intros H; destruct (Z.ltb_spec size 0); try lia; try reflexivity; replace (-1 <? 0) with true by lia; rewrite ?Z.ltb_irrefl.
  all: try (replace (_ <? size) with false by lia; reflexivity).
  all: replace (_ <? size) with true by lia; reflexivity.
Qed.
Print Assumptions C16_pack_size.
Theorem C16_unpack_size : forall (w : Z) (p : pk) (value : list Z) (size : Z), w = 8 \/ w = 32 -> 0 <= count p ->
  (zlen value * w < size -> unpack_arr w p value size = Ok (p, [])) /\
  (0 <= size <= zlen value * w -> psize p < count p + size -> unpack_arr w p value size = Ok (p, value)) /\
  (0 <= size <= zlen value * w -> count p + size <= psize p ->
     unpack_arr w p value size = (do (_, l) <- unpack_arr w (Pk (be p) 0 (m_bits p) (zlen value * w)) value (-1); Ok (Pk (be p) (count p + size) (m_bits p) (psize p), l))).
Proof.
  intros w [big c m sz] value size W C. cbn [be count m_bits psize] in *. unfold unpack_arr, enough_bits. cbn [be count m_bits psize]. split; [|split].
  - intros H. replace (size <? 0) with false by (unfold zlen in *; lia). replace (_ <? size) with true by lia. reflexivity.
  - intros H1 H2. replace (size <? 0) with false by lia. replace (_ <? size) with false by lia. replace (sz - c <? size) with true by lia. reflexivity.
  - intros H1 H2. replace (size <? 0) with false by lia. replace (_ <? size) with false by lia. replace (sz - c <? size) with false by lia.
    replace (-1 <? 0) with true by lia. rewrite Z.ltb_irrefl. replace (zlen value * w - 0 <? zlen value * w) with false by lia. cbn [negb].
    assert (G : forall rest value, unpack_arr_loop w (Pk big c m sz) rest value = unpack_arr_loop w (Pk big 0 m (zlen value * w)) rest value).
    { assert (G : forall z rest value, unpack_arr_loop w (Pk big c m sz) rest value = unpack_arr_loop w (Pk big 0 m z) rest value); [|intros; apply G].
      clear. intros z. induction rest as [|b rest IH]; intros value; [reflexivity|]. cbn [unpack_arr_loop be m_bits]. destruct big; [|apply IH]. destruct (flip_bit_order _ w); cbn [bind]; auto. }
    rewrite G. destruct (unpack_arr_loop _ _ _ _); reflexivity.
Qed.
Print Assumptions C16_unpack_size.
Example C16_size_example :
  pack_bytes (Pk false 0 0 0) [1; 2; 3] 8 = Ok (Pk false 24 197121 0) /\
  unpack_bytes (Pk false 0 197121 24) [0; 0; 0] 8 = Ok (Pk false 8 197121 24, [1; 2; 3]) /\
  unpack_bytes (Pk false 0 197121 24) [0; 0; 0] 25 = Ok (Pk false 0 197121 24, []) /\
  unpack_bytes (Pk false 8 197121 24) [9; 9; 9] 24 = Ok (Pk false 8 197121 24, [9; 9; 9]).
Proof. vm_compute. repeat split. Qed.

Example C16_example :
  (do q <- pack_bytes (Pk true 0 0 0) [1; 200; 30] (-1); unpack_bytes (set_packed_size q) [0; 0; 0] (-1))
  = Ok (Pk true 24 8393592 24, [1; 200; 30]).
Proof. vm_compute. reflexivity. Qed.

(** C17. get_bytes (w = 8) and get_ints (w = 32) export every packed bit, and
    zeros beyond the packed size. *)
Theorem C17_get_words : forall (w : Z) (p : pk), 0 < w -> 0 <= psize p ->
  exists l, get_words w p = map Ok l /\ zlen l = (psize p + (w - 1)) / w /\
    forall i, 0 <= i < zlen l -> exists v, nth_error l (Z.to_nat i) = Some v /\ 0 <= v < 2 ^ w /\
      forall j, 0 <= j < w -> Z.testbit v j =
        let k := w * i + (if be p then w - 1 - j else j) in (k <? psize p) && Z.testbit (m_bits p) k.
Proof. exact get_words_ok. Qed.
Print Assumptions C17_get_words.

Example C17_example : get_bytes (Pk true 0 (2 ^ 9 + 5) 12) = [Ok 160; Ok 64].
Proof. vm_compute. reflexivity. Qed.

(** put_bits(get_bits()) loses the leading zeros of the packed size, so the
    field read back is lost. *)
Theorem C17_put_bits_limit :
  (do q <- pack_field_int (Pk false 0 0 0) 1 8;
   let r := put_bits (Pk false 0 0 0) (m_bits (set_packed_size q)) in
   do (p, v) <- unpack_field_int r 8; Ok (psize r, v)) = Ok (1, 0).
Proof. vm_compute. reflexivity. Qed.
Print Assumptions C17_put_bits_limit.

(** It restores everything exactly when the last packed bit is 1. *)
Theorem C17_put_bits : forall (p : pk) (size : Z),
  0 <= m_bits p < 2 ^ size -> 0 < size ->
  m_bits (put_bits (Pk (be p) 0 0 0) (m_bits p)) = m_bits p /\ count (put_bits (Pk (be p) 0 0 0) (m_bits p)) = 0 /\
  (psize (put_bits (Pk (be p) 0 0 0) (m_bits p)) = size <-> size = 1 \/ Z.testbit (m_bits p) (size - 1) = true).
Proof.
  intros p size H1 H2. unfold put_bits. cbn [be m_bits count psize]. split; [reflexivity|]. split; [reflexivity|]. split.
  - intros E. destruct (m_bits p) as [|v|v]; cbn [num_bits] in E; [left; lia| |lia].
    right. destruct (Z.testbit (Z.pos v) (size - 1)) eqn:Et; [reflexivity|exfalso].
    assert (Hb : Z.pos v < 2 ^ (size - 1)).
    { apply bits_bound; try lia. intros i Hi. destruct (Z.eq_dec i (size - 1)) as [->|]; [exact Et|]. apply testbit_above with size; lia. }
    apply pos_size_bound in Hb. lia.
  - intros [->|Ht]; [|now apply num_bits_top]. destruct (m_bits p) as [|v|v]; [reflexivity| |lia]. cbn in H1. assert (v = 1%positive) as -> by lia. reflexivity.
Qed.
Print Assumptions C17_put_bits.

(** Nothing of what the packer held before matters. *)
Theorem C17_put_bits_any : forall (p : pk) (bits : Z), put_bits p bits = put_bits (Pk (be p) 0 0 0) bits.
Proof. reflexivity. Qed.
Print Assumptions C17_put_bits_any.

(** C72. The slice helper returns one bit too many ... *)
Theorem C72_slice_limit : slice_bits 16 0 4 = 16.
Proof. reflexivity. Qed.
Print Assumptions C72_slice_limit.

(** ... for every argument, so that it is right iff the bit above is 0. *)
Theorem C72_slice : forall bits cnt nbits, 0 <= nbits -> 0 <= cnt ->
  slice_bits bits cnt nbits = Z.land (Z.shiftr bits cnt) (Z.ones (nbits + 1)) /\
  (slice_bits bits cnt nbits = Z.land (Z.shiftr bits cnt) (Z.ones nbits)
   <-> Z.testbit bits (cnt + nbits) = false).
Proof.
  intros bits cnt nbits Hn Hc. rewrite slice_bits_ok by auto. split; auto.
  set (v := Z.shiftr bits cnt).
  assert (HB : Z.testbit bits (cnt + nbits) = Z.testbit v nbits).
  { unfold v. rewrite Z.shiftr_spec by auto. f_equal. lia. }
  rewrite HB. split.
  - intros H. apply (f_equal (fun x => Z.testbit x nbits)) in H. rewrite !Z.land_spec in H.
    rewrite Z.ones_spec_low in H by lia. rewrite Z.ones_spec_high in H by lia.
    now rewrite andb_true_r, andb_false_r in H.
  - intros H. apply Z.bits_inj'. intros i Hi. rewrite !Z.land_spec.
    destruct (Z.lt_trichotomy i nbits) as [|[->|]].
    + now rewrite !Z.ones_spec_low by lia.
    + rewrite H. reflexivity.
    + now rewrite !Z.ones_spec_high by lia.
Qed.
Print Assumptions C72_slice.

(** C73. A value wider than its field: big endian raises and changes nothing ... *)
Theorem C73_wide_big_endian : forall p v size, be p = true -> 0 <= v -> 0 < size -> 2 ^ size <= v ->
  pack_field_int p v size = Raise.
Proof.
  intros p v size HB H0 Hs Hv. unfold pack_field_int. rewrite HB.
  rewrite flip_too_wide; auto; try lia.
  destruct v as [|q|q]; [|cbn|lia].
  - pose proof (Z.pow_pos_nonneg 2 size). lia.
  - pose proof (pos_size_gt q). destruct (Z.lt_ge_cases size (Zpos (Pos.size q))); auto.
    assert (2 ^ Z.pos (Pos.size q) <= 2 ^ size) by (apply Z.pow_le_mono_r; lia). lia.
Qed.
Print Assumptions C73_wide_big_endian.

(** ... but little endian silently corrupts the next field. *)
(** In little-endian mode the whole value goes into the stream, whatever the
    size: it is or-ed over everything from the current position on. *)
Theorem C73_wide_little_endian : forall p v size, be p = false -> 0 <= count p -> exists q,
  pack_field_int p v size = Ok q /\ count q = count p + size /\
  forall i, 0 <= i -> Z.testbit (m_bits q) i = Z.testbit (m_bits p) i || ((count p <=? i) && Z.testbit v (i - count p)).
Proof.
  intros p v size Hb Hc. unfold pack_field_int. rewrite Hb. cbn. eexists. split; [reflexivity|]. split; [reflexivity|].
  intros i Hi. cbn [m_bits]. rewrite Z.lor_spec, Z.shiftl_spec by lia. destruct (Z.leb_spec (count p) i); [reflexivity|].
  now rewrite (Z.testbit_neg_r v) by lia.
Qed.
Print Assumptions C73_wide_little_endian.
Theorem C73_wide_little_endian_limit :
  (do q <- pack_fields (Pk false 0 0 0) [(4, 16 + 3); (4, 0)];
   do (p, l) <- unpack_fields (set_packed_size q) [4; 4]; Ok l) = Ok [3; 1].
Proof. vm_compute. reflexivity. Qed.
Print Assumptions C73_wide_little_endian_limit.

(** And a negative value never returns in big endian mode. *)
Theorem C73_negative_diverges : forall p v size, be p = true -> v < 0 ->
  pack_field_int p v size = Diverge /\ forall fuel, flip_while fuel v 0 = None.
Proof.
  intros p v size HB Hv. split.
  - unfold pack_field_int. rewrite HB. now destruct v.
  - intros. now apply flip_while_neg.
Qed.
Print Assumptions C73_negative_diverges.
