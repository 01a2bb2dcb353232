(** C30, C31, C32, C78, C79, C80: register maps. *)
From Coq Require Import ZArith List Bool Arith Lia Permutation.
From Verif Require Import RegFieldModel RegModel RegMapModel RegMapSpec RegMapProofs.
Import ListNotations.
Open Scope Z_scope.

(** ** C31 physical addresses *)

(** In a map without a parent the addresses of a register are exactly the
    words it needs, each once. *)
Theorem C31_flat_map l base n q :
  usable l -> 0 < n -> needs_words n (lw l) q ->
  let A := get_physical_addresses [l] base 0 n in
  NoDup A /\ Z.of_nat (length A) = q /\
  (forall x, In x A <-> exists i, 0 <= i < q /\ x = loff l + base + i * mult l).
Proof.
  intros Hu Hn Hq A. pose proof Hu as [Hw _].
  pose proof (words_eq _ _ _ Hw Hq) as E.
  unfold A, get_physical_addresses. rewrite phys_root by auto. cbn [fst ideal].
  split; [|split].
  - apply FinFun.Injective_map_NoDup; [intros a b; lia|]. now apply local_nodup.
  - rewrite map_length, local_length by auto. auto.
  - intros x. rewrite in_map_iff. split.
    + intros (y & <- & Hy). apply local_in in Hy; auto.
      destruct Hy as (q' & i & Hq' & Hi & ->). exists i.
      rewrite (needs_words_fun _ _ _ _ Hw Hq Hq'). split; [auto|lia].
    + intros (i & Hi & ->). exists (base + i * mult l). split; [lia|].
      apply local_in; auto. exists q, i. split; [auto|]. split; [auto|lia].
Qed.
Print Assumptions C31_flat_map.
(** With a FIFO endianness every word of the register has the same address. *)
Theorem C31_fifo l base n q :
  0 < lw l -> lend l = LITTLE_FIFO \/ lend l = BIG_FIFO -> 0 < n -> needs_words n (lw l) q ->
  get_physical_addresses [l] base 0 n = repeat (loff l + base) (Z.to_nat q).
Proof.
  intros Hw He Hn Hq. pose proof (words_eq _ _ _ Hw Hq) as E.
  unfold get_physical_addresses. cbn [phys]. destruct (n <=? 0) eqn:E0; [apply Z.leb_le in E0; lia|].
  cbn [fst]. unfold local_addrs. destruct (n <=? lw l) eqn:E1.
  - apply Z.leb_le in E1. assert (q = 1) as -> by (apply (needs_words_fun _ _ _ _ Hw Hq); unfold needs_words; lia). change (Z.to_nat 1) with 1%nat. cbn [repeat map]. f_equal. lia.
  - rewrite <- E. assert (R : map (fun a => a + loff l) (map (fun _ => base + 0 * (q * mult l)) (zrange q)) = repeat (loff l + base) (Z.to_nat q)).
    { rewrite map_map. replace (base + 0 * (q * mult l) + loff l) with (loff l + base) by lia.
      unfold zrange. rewrite map_map. rewrite <- (seq_length (Z.to_nat q) 0) at 2.
      generalize (seq 0 (Z.to_nat q)). intros k. induction k as [|x k IH]; [reflexivity|]. cbn. now rewrite IH. }
    destruct He as [He|He]; rewrite He; exact R.
Qed.
Print Assumptions C31_fifo.

(** In any hierarchy, whatever the accumulation does to multiplicities, the
    addresses are those of the specification ... *)
Theorem C31_addresses l up base n x :
  Forall usable (l :: up) -> 0 < n ->
  (In x (get_physical_addresses (l :: up) base 0 n) <-> address_of l up base n x).
Proof. apply phys_address_of. Qed.
Print Assumptions C31_addresses.

(** ... and do not depend on the endianness of any map. *)
Definition same_but_endian (a b : level) : Prop :=
  lw a = lw b /\ lbyte a = lbyte b /\ loff a = loff b.
Lemma word_of_endian a b base n y :
  same_but_endian a b -> word_of a base n y -> word_of b base n y.
Proof.
  intros (E1 & E2 & E3) (q & i & H1 & H2 & H3). exists q, i.
  unfold mult in *. rewrite <- E1, <- E2. auto.
Qed.
Lemma lifted_endian l1 up1 l2 up2 y x :
  Forall2 same_but_endian (l1 :: up1) (l2 :: up2) -> lifted l1 up1 y x -> lifted l2 up2 y x.
Proof.
  revert l1 l2 up2 y x. induction up1 as [|u1 up1 IH]; intros l1 l2 up2 y x H L;
    inversion H as [|? ? ? ? (E1 & E2 & E3) H2]; subst;
    inversion H2 as [|? u2 ? up2' F H3]; subst; cbn [lifted] in *.
  - now rewrite <- E3.
  - destruct L as (k & z & K & W & L). exists k, z.
    rewrite <- E1, <- E3. destruct F as (F1 & F2 & F3). rewrite <- F1.
    split; [auto|]. split.
    + eapply word_of_endian; [|exact W]. repeat split; auto.
    + eapply IH; eauto.
Qed.
Theorem C31_endian_same_set l1 up1 l2 up2 base n x :
  Forall usable (l1 :: up1) -> Forall usable (l2 :: up2) -> 0 < n ->
  Forall2 same_but_endian (l1 :: up1) (l2 :: up2) ->
  In x (get_physical_addresses (l1 :: up1) base 0 n) ->
  In x (get_physical_addresses (l2 :: up2) base 0 n).
Proof.
  intros U1 U2 Hn H. rewrite !phys_address_of by auto.
  intros (y & W & L). exists y. split.
  - eapply word_of_endian; [|exact W]. now inversion H.
  - eapply lifted_endian; eauto.
Qed.
Print Assumptions C31_endian_same_set.

(** Registers occupying disjoint offsets of a map get disjoint addresses, in
    uniformly addressed hierarchies. *)
Theorem C31_disjoint l up base1 n1 base2 n2 x :
  Forall usable (l :: up) -> uniform l up -> 0 < n1 -> 0 < n2 ->
  (forall o, occupies l base1 n1 o -> occupies l base2 n2 o -> False) ->
  In x (get_physical_addresses (l :: up) base1 0 n1) ->
  In x (get_physical_addresses (l :: up) base2 0 n2) -> False.
Proof. apply disjoint_addresses. Qed.
Print Assumptions C31_disjoint.

(** The addresses of one register are distinct and transfer enough bytes, when
    only the two outermost maps split accesses. *)
Theorem C31_distinct l up base n :
  Forall usable (l :: up) -> uniform l up -> 0 < n -> splits_at_top l up n ->
  NoDup (get_physical_addresses (l :: up) base 0 n) /\
  narrowest (l :: up) (system_width (l :: up) base n) /\
  n <= Z.of_nat (length (get_physical_addresses (l :: up) base 0 n))
       * system_width (l :: up) base n.
Proof.
  intros Hu Hun Hn Hs.
  pose proof (phys_width l up base 0 n [] Hu Hn) as N.
  unfold get_physical_addresses, system_width.
  rewrite (phys_ideal l up base 0 n []) by auto.
  replace (match up with [] => [] | _ => [] end ++ ideal l up base 0 n)
    with (ideal l up base 0 n) by (destruct up; reflexivity).
  split; [|split].
  - now apply ideal_nodup.
  - exact N.
  - rewrite ideal_length by auto. now apply count_covers.
Qed.
Print Assumptions C31_distinct.

(** a 16-byte register in a 8-byte map inside a 4-byte map *)
Definition ex_in := Level 8 true BIG_ENDIAN 256.
Definition ex_top := Level 4 true LITTLE_ENDIAN 4096.
Example C31_example :
  get_physical_addresses [ex_in; ex_top] 16 0 16 = [4400; 4404; 4384; 4388] /\
  uniform ex_in [ex_top] /\ splits_at_top ex_in [ex_top] 16.
Proof.
  split; [reflexivity|]. split; [right; split; [repeat constructor|cbn; lia]|exact I].
Qed.

(** Three levels: the innermost map splits a register in two words, and the
    address of the first appears twice. *)
Definition r3_chain :=
  [Level 4 true LITTLE_ENDIAN 0; Level 4 true LITTLE_ENDIAN 0; Level 4 true LITTLE_ENDIAN 0].
Theorem C31_three_level_limit :
  exists l up base n, Forall usable (l :: up) /\ uniform l up /\ 0 < n /\
    ~ NoDup (get_physical_addresses (l :: up) base 0 n).
Proof.
  exists (Level 4 true LITTLE_ENDIAN 0),
    [Level 4 true LITTLE_ENDIAN 0; Level 4 true LITTLE_ENDIAN 0], 0, 8.
  split; [repeat constructor; auto|]. split; [right; split; [repeat constructor|cbn; lia]|].
  split; [lia|]. vm_compute. intros H. inversion H as [|? ? A _]. apply A. now left.
Qed.
Print Assumptions C31_three_level_limit.

(** A word-addressed map inside a byte-addressed narrower one: registers at
    adjacent offsets share an address. *)
Theorem C31_mixed_limit :
  exists l up base1 base2 n x,
    Forall usable (l :: up) /\ 0 < n /\
    (forall o, occupies l base1 n o -> occupies l base2 n o -> False) /\
    In x (get_physical_addresses (l :: up) base1 0 n) /\
    In x (get_physical_addresses (l :: up) base2 0 n).
Proof.
  exists (Level 4 false LITTLE_ENDIAN 0), [Level 2 true LITTLE_ENDIAN 0], 0, 1, 4, 2.
  split; [repeat constructor; auto|]. split; [lia|]. split.
  - intros o (q1 & [Q1 Q1'] & H1) (q2 & [Q2 Q2'] & H2). unfold mult in *. cbn in *. lia.
  - vm_compute. auto.
Qed.
Print Assumptions C31_mixed_limit.

(** ** C30 multi-word access *)
Theorem C30_lossless ok worder rorder l up base n d st value :
  Forall usable (l :: up) -> uniform l up -> 0 < n -> splits_at_top l up n ->
  reorders worder -> reorders rorder ->
  0 <= value < 2 ^ (8 * n) ->
  let addrs := get_physical_addresses (l :: up) base 0 n in
  let bw := system_width (l :: up) base n in
  (forall a, In a addrs -> ok a = true) ->
  forall d' st' log, bus_write ok worder bw 0 d st addrs [value] = (d', st', log) ->
  st' = IS_OK /\
  (forall a, ~ In a addrs -> d' a = d a) /\
  (forall st2, exists log2,
     bus_read ok rorder bw 0 d' st2 addrs 1 = ([value], IS_OK, log2)).
Proof.
  intros Hu Hun Hn Hs Hwo Hro Hv addrs bw Hok d' st' log E.
  destruct (C31_distinct l up base n Hu Hun Hn Hs) as (ND & NW & CV).
  fold addrs bw in ND, NW, CV.
  assert (Hbw : 0 < bw).
  { destruct NW as [(l0 & Hl0 & <-) _]. rewrite Forall_forall in Hu. apply Hu, Hl0. }
  pose proof (gpa_nonempty l up base n Hu Hn) as NE. fold addrs in NE.
  assert (OKj : forall j a, (j < 1)%nat -> In a (at_elem addrs 0 j) -> ok a = true).
  { intros j a Hj. replace j with O by lia. rewrite at_elem_0. auto. }
  pose proof (bus_write_holds ok worder bw 0 [value] Hwo addrs d st ND OKj) as W.
  cbn zeta in W. rewrite E in W. cbn [fst snd] in W.
  destruct W as (A & B & C); [cbn; intros; lia|].
  split; [apply C; congruence|]. split.
  - intros a Ha. apply B. intros j Hj. cbn in Hj. replace j with O by lia. now rewrite at_elem_0.
  - intros st2.
    pose proof (bus_read_held ok rorder bw 0 d' Hro Hbw [value] addrs st2 OKj) as R.
    destruct R as [R1 R2].
    { intros j v Hj. destruct (A j v Hj) as [A1 _]. split; [exact A1|].
      destruct j as [|j]; [|destruct j; discriminate]. cbn in Hj. inversion Hj; subst v.
      split; [lia|]. eapply Z.lt_le_trans; [apply Hv|]. apply Z.pow_le_mono_r; nia. }
    cbn [length] in R1, R2. specialize (R2 NE ltac:(congruence)).
    destruct (bus_read ok rorder bw 0 d' st2 addrs 1) as [[vs s] log2].
    cbn [fst snd] in *. subst. eauto.
Qed.
Print Assumptions C30_lossless.

(** the data of each access are the bits of the value for its position *)
Theorem C30_slices value bw addrs a v :
  In (a, v) (write_ops value bw 0 addrs) -> 0 < bw ->
  exists j, nth_error addrs j = Some a /\
    forall i, 0 <= i ->
      Z.testbit v i = (i <? 8 * bw) && Z.testbit value (i + 8 * bw * Z.of_nat j).
Proof.
  intros H Hbw. apply write_ops_in in H as (j & Hj & ->). exists j. split; [exact Hj|].
  intros i Hi. rewrite mask_ones, Z.land_spec, Z.shiftr_spec by lia.
  rewrite Z.testbit_ones_nonneg by lia. rewrite andb_comm.
  f_equal; [f_equal; lia|f_equal; lia].
Qed.
Print Assumptions C30_slices.

Example C30_example :
  let addrs := get_physical_addresses [ex_in; ex_top] 16 0 16 in
  let d := fst (fst (bus_write (fun _ => true) (fun l => l) 4 0 (fun _ => 7) NOT_OK addrs
                       [0x112233445566778899aabbccddeeff00])) in
  system_width [ex_in; ex_top] 16 16 = 4 /\
  d 4400 = 0xddeeff00 /\ d 4388 = 0x11223344 /\ d 0 = 7 /\
  fst (fst (bus_read (fun _ => true) (@rev busop) 4 0 d NOT_OK addrs 1))
    = [0x112233445566778899aabbccddeeff00].
Proof. vm_compute. auto. Qed.

(** With three map levels the duplicated address destroys the value. *)
Theorem C30_three_level_limit :
  exists l up base n value, Forall usable (l :: up) /\ uniform l up /\ 0 < n /\
    0 <= value < 2 ^ (8 * n) /\
    let addrs := get_physical_addresses (l :: up) base 0 n in
    let bw := system_width (l :: up) base n in
    fst (fst (bus_read (fun _ => true) (fun l => l) bw 0
      (fst (fst (bus_write (fun _ => true) (fun l => l) bw 0 (fun _ => 0) NOT_OK addrs [value])))
      NOT_OK addrs 1)) <> [value].
Proof.
  exists (Level 4 true LITTLE_ENDIAN 0),
    [Level 4 true LITTLE_ENDIAN 0; Level 4 true LITTLE_ENDIAN 0], 0, 8, 0x1122334455667788.
  split; [repeat constructor; auto|]. split; [right; split; [repeat constructor|cbn; lia]|].
  split; [lia|]. split; [lia|]. vm_compute. intros H. discriminate H.
Qed.
Print Assumptions C30_three_level_limit.

(** ** C78 failing bus accesses *)
(** For one value: the accesses performed are a prefix of those planned, ending
    at the first that fails; the status is NOT_OK exactly when one failed. *)
Theorem C78_failure_stops ok order bw stride d st addrs value d' st' log :
  reorders order -> addrs <> [] ->
  bus_write ok order bw stride d st addrs [value] = (d', st', [log]) ->
  exists rest, order (write_ops value bw 0 addrs) = log ++ rest /\
    ((st' = IS_OK /\ rest = [] /\ Forall (fun o => ok (fst o) = true) log) \/
     (st' = NOT_OK /\ exists pre a v, log = pre ++ [(a, v)] /\ ok a = false /\
        Forall (fun o => ok (fst o) = true) pre)).
Proof.
  intros Ho Hne E. cbn [bus_write] in E.
  pose proof (write_loop_fail ok d st (order (write_ops value bw 0 addrs))) as F.
  cbn zeta in F.
  destruct (write_loop ok d st (order (write_ops value bw 0 addrs))) as [[d1 st1] log1].
  inversion E; subst d1 st1 log1. cbn [fst snd] in F.
  assert (Hops : order (write_ops value bw 0 addrs) <> []).
  { intros E0. pose proof (Ho (write_ops value bw 0 addrs)) as P. rewrite E0 in P.
    apply Permutation_nil in P. destruct addrs; [congruence|discriminate]. }
  destruct F as [(rest & H1 & H2 & H3)|F]; [|congruence].
  exists rest. split; [auto|]. destruct st'.
  - left. destruct (H3 eq_refl). auto.
  - right. split; [auto|]. destruct (H2 eq_refl Hops) as (a & v & pre & ? & ? & ?).
    exists pre, a, v. auto.
Qed.
Print Assumptions C78_failure_stops.

(** The same for reads. *)
Theorem C78_read_failure ok order bw stride d st addrs vs st' log :
  reorders order -> addrs <> [] ->
  bus_read ok order bw stride d st addrs 1 = (vs, st', [log]) ->
  exists rest, map fst (order (read_ops bw 0 addrs)) = log ++ rest /\
    ((st' = IS_OK /\ rest = [] /\ Forall (fun a => ok a = true) log) \/
     (st' = NOT_OK /\ exists pre a, log = pre ++ [a] /\ ok a = false /\
        Forall (fun a => ok a = true) pre)).
Proof.
  intros Ho Hne E. cbn [bus_read] in E.
  assert (Hops : order (read_ops bw 0 addrs) <> []).
  { intros E0. pose proof (Ho (read_ops bw 0 addrs)) as P. rewrite E0 in P.
    apply Permutation_nil in P. destruct addrs; [congruence|discriminate]. }
  pose proof (read_loop_fail ok d bw (order (read_ops bw 0 addrs)) st 0 Hops) as F. cbn zeta in F.
  destruct (read_loop ok d bw st 0 (order (read_ops bw 0 addrs))) as [[v1 st1] log1].
  inversion E; subst vs st1 log1. exact F.
Qed.
Print Assumptions C78_read_failure.
Example C78_read_example :
  bus_read (fun a => negb (a =? 4)) (fun l => l) 4 0 (fun a => a + 1) IS_OK [0; 4; 8] 1
  = ([1], NOT_OK, [[0; 4]]).
Proof. reflexivity. Qed.

Example C78_example :
  exists d', bus_write (fun a => negb (a =? 4)) (fun l => l) 4 0 (fun _ => 0) IS_OK [0; 4; 8]
    [0x1122334455667788] = (d', NOT_OK, [[(0, 0x55667788); (4, 0x11223344)]]).
Proof. eexists. reflexivity. Qed.

(** In a burst, a failure of an earlier element is forgotten. *)
Theorem C78_burst_status ok order bw stride values : forall d st addrs value d' st' log,
  reorders order -> addrs <> [] ->
  bus_write ok order bw stride d st addrs (values ++ [value]) = (d', st', log) ->
  exists logs l, log = logs ++ [l] /\ length logs = length values /\
    (st' = IS_OK <-> Forall (fun o => ok (fst o) = true) l).
Proof.
  induction values as [|v vs IH]; intros d st addrs value d' st' log Ho Hne E.
  - cbn [app] in E. assert (HL : exists l, log = [l]).
    { cbn [bus_write] in E. destruct (write_loop ok d st (order (write_ops value bw 0 addrs))) as [[d1 st1] l1]. inversion E. eauto. }
    destruct HL as [l ->]. destruct (C78_failure_stops _ _ _ _ _ _ _ _ _ _ _ Ho Hne E) as (rest & _ & [(-> & _ & HF)|(-> & pre & a & w & -> & Ha & _)]).
    + exists [], l. split; [reflexivity|]. split; [reflexivity|]. tauto.
    + exists [], (pre ++ [(a, w)]). split; [reflexivity|]. split; [reflexivity|]. split; [intros HX; discriminate HX|].
      intros HF. rewrite Forall_app in HF. destruct HF as [_ HF]. inversion HF; subst. cbn in *. congruence.
  - cbn [app bus_write] in E. destruct (write_loop ok d st (order (write_ops v bw 0 addrs))) as [[d1 st1] l1].
    destruct (bus_write ok order bw stride d1 st1 (map (fun a => a + stride) addrs) (vs ++ [value])) as [[d2 st2] log2] eqn:E2.
    inversion E; subst. assert (Hne2 : map (fun a => a + stride) addrs <> []) by (destruct addrs; [congruence|cbn; intros HX; discriminate HX]). destruct (IH _ _ _ _ _ _ _ Ho Hne2 E2) as (logs & l & -> & HL & HS).
    exists (l1 :: logs), l. split; [reflexivity|]. split; [cbn; now rewrite HL|exact HS].
Qed.
Print Assumptions C78_burst_status.
Theorem C78_burst_limit :
  exists ok addrs values, exists log d',
    bus_write ok (fun l => l) 4 4 (fun _ => 0) NOT_OK addrs values = (d', IS_OK, log) /\
    exists a v, In [(a, v)] log /\ ok a = false.
Proof.
  exists (fun a => negb (a =? 0)), [0], [5; 6], [[(0, 5)]; [(4, 6)]]. eexists.
  split; [reflexivity|]. exists 0, 5. cbn. auto.
Qed.
Print Assumptions C78_burst_limit.

(** ** C80 memory elements and bursts *)
Theorem C80_element_addresses l up offset n msize :
  Forall usable (l :: up) -> 0 < n -> 2 <= msize ->
  exists addrs stride,
    mem_range (l :: up) offset n msize = Some (addrs, stride) /\
    forall o, mem_addrs addrs stride o = get_physical_addresses (l :: up) offset o n.
Proof.
  intros Hu Hn Hm. destruct (mem_range_elements l up offset n msize 0 Hu Hn Hm) as (A & S & E & _).
  exists A, S. split; [exact E|]. intros o.
  destruct (mem_range_elements l up offset n msize o Hu Hn Hm) as (A' & S' & E' & H).
  rewrite E in E'. inversion E'; subst. exact H.
Qed.
Print Assumptions C80_element_addresses.

Lemma elem_occupies l base n q i :
  0 < lw l -> 0 < n -> needs_words n (lw l) q ->
  forall o, occupies l (base + i * (words n (lw l) * mult l)) n o <->
    base + i * (q * mult l) <= o < base + (i + 1) * (q * mult l).
Proof.
  intros Hw Hn Hq o. pose proof (words_eq _ _ _ Hw Hq) as E. rewrite <- E.
  unfold occupies. split.
  - intros (q' & Hq' & H). rewrite <- (needs_words_fun _ _ _ _ Hw Hq Hq') in H. lia.
  - intros H. exists q. split; [auto|lia].
Qed.

Theorem C80_burst ok worder rorder l up offset n msize d st o values :
  Forall usable (l :: up) -> uniform l up -> 0 < n -> 2 <= msize -> splits_at_top l up n ->
  reorders worder -> reorders rorder ->
  (forall a, ok a = true) ->
  Forall (fun v => 0 <= v < 2 ^ (8 * n)) values -> values <> [] ->
  exists addrs stride,
    mem_range (l :: up) offset n msize = Some (addrs, stride) /\
    let bw := system_width (l :: up) offset n in
    exists d' log,
    bus_write ok worder bw stride d st (mem_addrs addrs stride o) values = (d', IS_OK, log) /\
    (forall j v, nth_error values j = Some v ->
       nth_error log j =
         Some (worder (write_ops v bw 0
                 (get_physical_addresses (l :: up) offset (o + Z.of_nat j) n)))) /\
    exists log2,
      bus_read ok rorder bw stride d' st (mem_addrs addrs stride o) (length values)
        = (values, IS_OK, log2).
Proof.
  intros Hu Hun Hn Hm Hs Hwo Hro Hok Hvs Hne.
  destruct (C80_element_addresses l up offset n msize Hu Hn Hm) as (A & S & E & HE).
  exists A, S. split; [exact E|]. cbn zeta.
  set (bw := system_width (l :: up) offset n).
  assert (Wl : 0 < lw l) by (inversion Hu as [|? ? [] ?]; auto).
  assert (EL : forall j, at_elem (mem_addrs A S o) S j
                = get_physical_addresses (l :: up) offset (o + Z.of_nat j) n).
  { intros j. rewrite <- HE. unfold at_elem, mem_addrs. rewrite map_map.
    apply map_ext. intros. lia. }
  assert (MO : forall k, get_physical_addresses (l :: up) offset k n =
    get_physical_addresses (l :: up) (offset + k * (words n (lw l) * mult l)) 0 n).
  { intros k. unfold get_physical_addresses. now rewrite phys_moff by auto. }
  assert (A0 : A = get_physical_addresses (l :: up) offset 0 n).
  { rewrite <- HE. unfold mem_addrs. rewrite <- (map_id A) at 1. apply map_ext. intros; lia. }
  destruct (C31_distinct l up offset n Hu Hun Hn Hs) as (ND & NW & CV).
  rewrite <- A0 in ND, CV. fold bw in NW, CV.
  assert (Hbw : 0 < bw).
  { destruct NW as [(l0 & Hl0 & <-) _]. rewrite Forall_forall in Hu. apply Hu, Hl0. }
  assert (NE : mem_addrs A S o <> []).
  { pose proof (gpa_nonempty l up offset n Hu Hn) as X. rewrite <- A0 in X.
    destruct A; [congruence|discriminate]. }
  pose proof (bus_write_holds ok worder bw S values Hwo (mem_addrs A S o) d st) as W.
  cbn zeta in W.
  destruct (bus_write ok worder bw S d st (mem_addrs A S o) values) as [[d' st'] log].
  cbn [fst snd] in W. destruct W as (W1 & W2 & W3).
  - apply FinFun.Injective_map_NoDup; [intros a b; lia|exact ND].
  - intros; apply Hok.
  - intros i j a Hij Hj Hi Hj'. rewrite EL, MO in Hi, Hj'.
    eapply (disjoint_addresses l up _ n _ n a Hu Hun Hn Hn); [|exact Hi|exact Hj'].
    intros x. pose proof (words_needs n (lw l) Wl) as Q.
    rewrite (elem_occupies l offset n _ _ Wl Hn Q), (elem_occupies l offset n _ _ Wl Hn Q).
    pose proof (mult_pos l Wl). pose proof (words_pos n (lw l) Wl Hn). nia.
  - exists d', log. rewrite (W3 NE Hne). split; [reflexivity|]. split.
    + intros j v Hj. destruct (W1 j v Hj) as [_ W]. now rewrite EL in W.
    + pose proof (bus_read_held ok rorder bw S d' Hro Hbw values (mem_addrs A S o) st) as R.
      destruct R as [R1 R2].
      * intros; apply Hok.
      * intros j v Hj. destruct (W1 j v Hj) as [W _]. split; [exact W|].
        rewrite Forall_forall in Hvs. specialize (Hvs v (nth_error_In _ _ Hj)).
        split; [lia|]. eapply Z.lt_le_trans; [apply Hvs|].
        apply Z.pow_le_mono_r; [lia|]. unfold mem_addrs. rewrite map_length. nia.
      * specialize (R2 NE Hne).
        destruct (bus_read ok rorder bw S d' st (mem_addrs A S o) (length values)) as [[vs s] log2].
        cbn [fst snd] in *. subst. eauto.
Qed.
Print Assumptions C80_burst.

Example C80_example :
  mem_range [ex_in; ex_top] 0 8 16 = Some ([4352; 4356], 16) /\
  get_physical_addresses [ex_in; ex_top] 0 3 8 = [4400; 4404].
Proof. vm_compute. auto. Qed.

(** A memory with a single element cannot be mapped: division by zero. *)
Theorem C80_single_element :
  forall chain offset n, mem_range chain offset n 1 = None.
Proof. reflexivity. Qed.
Print Assumptions C80_single_element.

(** ** C32 lookup *)
Theorem C32_lookup_sound acc m a read r :
  get_reg_by_offset true (fst (init_map acc m)) a read = Some r ->
  mapped_at (entries [] m) r a.
Proof.
  unfold get_reg_by_offset. cbn [negb]. intros H.
  pose proof (init_at acc m a) as E.
  destruct (put1_sound acc (at_addr a (flat (entries [] m))) (None, None)) as [A B].
  rewrite <- E in A, B. cbn [fst snd] in A, B. apply flat_mapped, in_at_addr.
  destruct read; cbn [negb] in H.
  - destruct (A r H); [auto|discriminate].
  - destruct (by_off_wo (fst (init_map acc m)) a) as [w|].
    + inversion H; subst w. destruct (B r eq_refl) as [?|[?|?]]; [auto|discriminate|discriminate].
    + destruct (A r H); [auto|discriminate].
Qed.
Print Assumptions C32_lookup_sound.

(** An address belonging to one register only gives that register, for reads
    and writes. *)
Theorem C32_lookup_unique acc m a r read :
  mapped_at (entries [] m) r a ->
  (forall r', mapped_at (entries [] m) r' a -> r' = r) ->
  get_reg_by_offset true (fst (init_map acc m)) a read = Some r.
Proof.
  intros H U. pose proof (init_at acc m a) as E.
  rewrite (put1_alone acc _ r) in E; [| |left; reflexivity|reflexivity].
  - assert (In r (at_addr a (flat (entries [] m)))) as I by (apply in_at_addr, flat_mapped; auto).
    destruct (at_addr a (flat (entries [] m))); [destruct I|].
    inversion E as [[E1 E2]]. unfold get_reg_by_offset. cbn [negb].
    rewrite E1, E2. destruct read; reflexivity.
  - intros x Hx. apply U, flat_mapped, in_at_addr. exact Hx.
Qed.
Print Assumptions C32_lookup_unique.

(** A read-only and a write-only register may share an address: reads give the
    former, writes the latter, in whatever order they were added. *)
Theorem C32_lookup_shared acc m a ro wo :
  acc ro = ARO -> acc wo = AWO ->
  mapped_at (entries [] m) ro a -> mapped_at (entries [] m) wo a ->
  (forall r', mapped_at (entries [] m) r' a -> r' = ro \/ r' = wo) ->
  get_reg_by_offset true (fst (init_map acc m)) a true = Some ro /\
  get_reg_by_offset true (fst (init_map acc m)) a false = Some wo.
Proof.
  intros Ar Aw Hr Hw U. pose proof (init_at acc m a) as E.
  rewrite (put1_pair acc _ ro wo Ar Aw) in E.
  - inversion E as [[E1 E2]]. unfold get_reg_by_offset. cbn [negb]. now rewrite E1, E2.
  - intros x Hx. apply U, flat_mapped, in_at_addr. exact Hx.
  - now left.
  - left. apply in_at_addr, flat_mapped. exact Hr.
  - left. apply in_at_addr, flat_mapped. exact Hw.
Qed.
Print Assumptions C32_lookup_shared.

Theorem C32_lookup_absent acc m a read :
  (forall r, ~ mapped_at (entries [] m) r a) ->
  get_reg_by_offset true (fst (init_map acc m)) a read = None.
Proof.
  intros H. destruct (get_reg_by_offset true (fst (init_map acc m)) a read) as [r|] eqn:E; [|auto].
  exfalso. exact (H r (C32_lookup_sound acc m a read r E)).
Qed.
Print Assumptions C32_lookup_absent.

(** The addresses registered for a register of a submap are those of the chain
    of maps above it. *)
Theorem C32_submap_entries up lv subs regs r :
  (In r regs -> r_unmapped r = false ->
   In (r_id r, get_physical_addresses (lv :: up) (r_off r) 0 (r_bytes r))
      (entries up (RMap lv subs regs))) /\
  (forall s, In s subs -> incl (entries (lv :: up) s) (entries up (RMap lv subs regs))).
Proof.
  split.
  - intros H U. cbn [entries]. apply in_or_app. right. unfold own_entries.
    apply in_flat_map. exists r. split; [auto|]. rewrite U. now left.
  - intros s Hs e He. cbn [entries]. apply in_or_app. left. apply in_flat_map. eauto.
Qed.
Print Assumptions C32_submap_entries.

Definition ex_map : rmap :=
  RMap ex_top [RMap ex_in [] [MReg 0 0 16 false]] [MReg 1 0 4 false; MReg 2 0 4 false; MReg 3 8 4 true].
Example C32_example :
  let acc := fun r => if Nat.eqb r 1 then AWO else if Nat.eqb r 2 then ARO else ARW in
  let t := fst (init_map acc ex_map) in
  get_reg_by_offset true t 4368 true = Some 0%nat /\
  get_reg_by_offset true t 4096 true = Some 2%nat /\
  get_reg_by_offset true t 4096 false = Some 1%nat /\
  get_reg_by_offset true t 4104 true = None.
Proof. vm_compute. auto. Qed.

(** ** C79 moving a register *)
Lemma leave_ok r : forall addrs t,
  NoDup addrs ->
  (forall a, In a addrs -> by_off t a = Some r /\ by_off_wo t a = None) ->
  exists t', leave r t addrs = Some t' /\
    (forall a, In a addrs -> by_off t' a = None) /\
    (forall a, ~ In a addrs -> by_off t' a = by_off t a) /\
    (forall a, by_off_wo t' a = by_off_wo t a).
Proof.
  induction addrs as [|a l IH]; intros t Hn H; cbn [leave].
  - exists t. repeat split; auto. intros ? [].
  - inversion Hn as [|? ? Na Nl]; subst.
    destruct (H a (or_introl eq_refl)) as [H1 H2].
    unfold leave_addr. rewrite H2, H1.
    destruct (IH (Tab (setd (by_off t) a None) (by_off_wo t)) Nl) as (t' & E & A & B & C).
    { intros b Hb. cbn. destruct (H b (or_intror Hb)). split; [|auto].
      rewrite setd_neq; [auto|]. intros ->. contradiction. }
    exists t'. split; [exact E|]. split; [|split].
    + intros b [->|Hb]; [|auto]. rewrite B by auto. cbn. apply setd_eq.
    + intros b Hb. rewrite B by (intros X; apply Hb; now right). cbn. apply setd_neq.
      intros ->. apply Hb. now left.
    + intros b. rewrite C. reflexivity.
Qed.
Lemma enter_free acc r : forall addrs t w,
  (forall a, In a addrs -> by_off t a = None \/ by_off t a = Some r) ->
  let t' := fst (fold_left (enter_addr acc r) addrs (t, w)) in
  (forall a, In a addrs -> by_off t' a = Some r) /\
  (forall a, ~ In a addrs -> by_off t' a = by_off t a) /\
  (forall a, by_off_wo t' a = by_off_wo t a).
Proof.
  induction addrs as [|a l IH]; intros t w H; cbn zeta; cbn [fold_left].
  - repeat split; auto. intros ? [].
  - assert (E : exists w', enter_addr acc r (t, w) a
        = (Tab (by_off (fst (enter_addr acc r (t, w) a))) (by_off_wo t), w') /\
        by_off (fst (enter_addr acc r (t, w) a)) a = Some r /\
        forall b, b <> a -> by_off (fst (enter_addr acc r (t, w) a)) b = by_off t b).
    { unfold enter_addr. destruct (H a (or_introl eq_refl)) as [E|E]; rewrite E.
      - exists w. cbn. split; [reflexivity|]. split; [apply setd_eq|].
        intros; now apply setd_neq.
      - destruct t as [bo bw]. cbn in *. destruct (acc r); eexists; cbn; (split; [reflexivity|auto]). }
    destruct E as (w' & E & E1 & E2). rewrite E.
    set (bo := by_off (fst (enter_addr acc r (t, w) a))) in *.
    destruct (IH (Tab bo (by_off_wo t)) w') as (A & B & C).
    { intros b Hb. cbn. destruct (Z.eq_dec b a) as [->|Hne]; [auto|]. rewrite E2 by auto.
      apply H. now right. }
    split; [|split].
    + intros b [->|Hb]; [|auto].
      destruct (in_dec Z.eq_dec b l); [auto|]. rewrite B by auto. exact E1.
    + intros b Hb. rewrite B by (intros X; apply Hb; now right). cbn. apply E2.
      intros ->. apply Hb. now left.
    + intros b. rewrite C. reflexivity.
Qed.

(** When the register was added with unmapped=False, its addresses are
    distinct and its own, and the new ones are free: lookups at the old
    addresses find nothing, at the new ones the register, elsewhere as before. *)
Theorem C79_move acc chain n r off addrs t offset :
  NoDup addrs ->
  (forall a, In a addrs -> by_off t a = Some r /\ by_off_wo t a = None) ->
  let new := get_physical_addresses chain offset 0 n in
  (forall a, In a new -> In a addrs \/ (by_off t a = None /\ by_off_wo t a = None)) ->
  exists t' info warn,
    set_reg_offset acc chain n r (RInfo off PFalse addrs) t offset (PInt 0) = Some (t', info, warn) /\
    i_off info = offset /\ i_addr info = new /\
    forall a read, get_reg_by_offset true t' a read =
      if in_dec Z.eq_dec a new then Some r
      else if in_dec Z.eq_dec a addrs then None
      else get_reg_by_offset true t a read.
Proof.
  intros Hn H new Hnew. unfold set_reg_offset. cbn [i_unmapped is_false i_addr].
  destruct (leave_ok r addrs t Hn H) as (t1 & E & A & B & C). rewrite E.
  cbn [truthy is_true Z.eqb negb].
  destruct (enter_free acc r new t1 []) as (D & F & G).
  { intros a Ha. left. destruct (in_dec Z.eq_dec a addrs); [auto|].
    rewrite B by auto. destruct (Hnew a Ha) as [?|[? _]]; [contradiction|auto]. }
  fold new. destruct (fold_left (enter_addr acc r) new (t1, [])) as [t2 warn]. cbn [fst] in *.
  exists t2, (RInfo offset (PInt 0) new), warn. split; [reflexivity|]. split; [auto|]. split; [auto|].
  intros a read. unfold get_reg_by_offset. cbn [negb].
  rewrite G, C. destruct (in_dec Z.eq_dec a new) as [I|I].
  - rewrite (D a I).
    assert (W : by_off_wo t a = None).
    { destruct (Hnew a I) as [X|[_ X]]; [apply H, X|auto]. }
    rewrite W. destruct read; reflexivity.
  - rewrite (F a I). destruct (in_dec Z.eq_dec a addrs) as [J|J].
    + rewrite (A a J). destruct (H a J) as [_ W]. rewrite W. destruct read; reflexivity.
    + rewrite (B a J). reflexivity.
Qed.
Print Assumptions C79_move.

(** Two registers sharing an address: when one of them moves away, the other is
    found there for reads and for writes. *)
Theorem C79_shared acc chain n r r2 a off t offset ro wo :
  r2 <> r -> (ro = r /\ wo = r2 \/ ro = r2 /\ wo = r) ->
  by_off t a = Some ro -> by_off_wo t a = Some wo ->
  let new := get_physical_addresses chain offset 0 n in
  (forall b, In b new -> b <> a /\ by_off t b = None) ->
  exists t' info warn,
    set_reg_offset acc chain n r (RInfo off PFalse [a]) t offset (PInt 0) = Some (t', info, warn) /\
    (forall read, get_reg_by_offset true t' a read = Some r2) /\
    (forall b, In b new -> get_reg_by_offset true t' b true = Some r).
Proof.
  intros Hne Hs H1 H2 new Hnew. unfold set_reg_offset. cbn [i_unmapped is_false i_addr leave].
  unfold leave_addr. rewrite H2, H1. cbn [truthy is_true Z.eqb negb]. fold new.
  set (t1 := Tab _ _).
  assert (T1 : by_off t1 a = Some r2 /\ by_off_wo t1 a = None).
  { split; [|apply setd_eq]. cbn. destruct Hs as [[-> ->]|[-> ->]].
    - rewrite Nat.eqb_refl. apply setd_eq.
    - destruct (Nat.eqb_spec r2 r); [congruence|auto]. }
  assert (T2 : forall b, b <> a -> by_off t1 b = by_off t b).
  { intros b Hb. cbn. destruct (Nat.eqb ro r); [now apply setd_neq|auto]. }
  destruct (enter_free acc r new t1 []) as (D & F & G).
  { intros b Hb. left. destruct (Hnew b Hb). now rewrite T2. }
  destruct (fold_left (enter_addr acc r) new (t1, [])) as [t2 warn]. cbn [fst] in *.
  exists t2, (RInfo offset (PInt 0) new), warn. split; [reflexivity|]. split.
  - assert (Ha : ~ In a new) by (intros Ha; destruct (Hnew a Ha); congruence).
    destruct T1 as [T1 T3]. intros read. unfold get_reg_by_offset. cbn [negb].
    rewrite G, T3, (F a Ha), T1. destruct read; reflexivity.
  - intros b Hb. unfold get_reg_by_offset. cbn [negb]. now rewrite (D b Hb).
Qed.
Print Assumptions C79_shared.

Example C79_shared_example :
  exists t' info warn,
    set_reg_offset (fun _ => ARO) [ex_top] 4 5 (RInfo 0 PFalse [4096])
      (Tab (setd (fun _ => None) 4096 (Some 5%nat)) (setd (fun _ => None) 4096 (Some 6%nat))) 8 (PInt 0)
      = Some (t', info, warn) /\
    get_reg_by_offset true t' 4096 true = Some 6%nat /\ get_reg_by_offset true t' 4096 false = Some 6%nat.
Proof. do 3 eexists. split; [reflexivity|]. vm_compute. auto. Qed.

Example C79_example :
  exists t' info warn,
    set_reg_offset (fun _ => ARW) [ex_top] 4 5 (RInfo 0 PFalse [4096])
      (Tab (setd (fun _ => None) 4096 (Some 5%nat)) (fun _ => None)) 8 (PInt 0) = Some (t', info, warn) /\
    get_reg_by_offset true t' 4096 true = None /\
    get_reg_by_offset true t' 4104 true = Some 5%nat.
Proof. do 3 eexists. split; [reflexivity|]. vm_compute. auto. Qed.

(** With the default arguments (the integer 0) the old addresses stay in the
    table: a moved register still answers at its former address. *)
Theorem C79_default_keeps acc chain n r off addrs z t offset : exists t' info warn,
  set_reg_offset acc chain n r (RInfo off (PInt z) addrs) t offset (PInt 0) = Some (t', info, warn) /\
  i_off info = offset /\ i_addr info = get_physical_addresses chain offset 0 n /\
  forall a read, ~ In a (get_physical_addresses chain offset 0 n) -> get_reg_by_offset true t' a read = get_reg_by_offset true t a read.
Proof.
  unfold set_reg_offset. cbn [i_unmapped is_false truthy Z.eqb negb is_true].
  destruct (fold_left (enter_addr acc r) (get_physical_addresses chain offset 0 n) (t, [])) as [t2 warn] eqn:E.
  do 3 eexists. split; [reflexivity|]. split; [reflexivity|]. split; [reflexivity|].
  assert (HK : forall l tb a, ~ In a l -> by_off (fst (fold_left (enter_addr acc r) l tb)) a = by_off (fst tb) a /\ by_off_wo (fst (fold_left (enter_addr acc r) l tb)) a = by_off_wo (fst tb) a).
  { induction l as [|b l IH]; intros tb a Hn; [auto|]. cbn [fold_left]. destruct (IH (enter_addr acc r tb b) a) as [I1 I2]; [intros H; apply Hn; now right|].
    rewrite I1, I2. pose proof (enter1_at acc tb (r, b) a) as H1. cbn [snd] in H1. destruct (Z.eqb_spec b a) as [->|Hne]; [exfalso; apply Hn; now left|].
    unfold enter1 in H1. cbn [fst snd] in H1. injection H1 as H1 H2. auto. }
  intros a read Hn. destruct (HK _ (t, []) a Hn) as [H1 H2]. rewrite E in H1, H2. cbn [fst] in H1, H2. unfold get_reg_by_offset. now rewrite H1, H2.
Qed.
Print Assumptions C79_default_keeps.
Theorem C79_default_limit :
  exists m r, let t := fst (init_map (fun _ => ARW) m) in
    get_reg_by_offset true t 4096 true = Some r /\
    exists t' info warn,
      set_reg_offset (fun _ => ARW) [ex_top] 4 r (RInfo 0 (PInt 0) [4096]) t 8 (PInt 0)
        = Some (t', info, warn) /\
      i_addr info = [4104] /\ get_reg_by_offset true t' 4096 true = Some r.
Proof.
  exists (RMap ex_top [] [MReg 7 0 4 false]), 7%nat. cbn zeta. split; [reflexivity|].
  do 3 eexists. split; [reflexivity|]. vm_compute. auto.
Qed.
Print Assumptions C79_default_limit.
