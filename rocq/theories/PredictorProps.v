(** C107, C108: the register predictor. *)
From Coq Require Import ZArith List Bool Arith Lia Permutation.
From Verif Require Import Prelude RegFieldModel RegModel RegProofs RegMapModel RegMapSpec RegMapProofs RegMapProps
  PredictorModel PredictorSpec PredictorProofs.
Import ListNotations.
Open Scope Z_scope.

(** ** C107: transfers are put together per register *)
Theorem C107_history c r xs es o y :
  NoDup (addrs c r) -> addrs c r <> [] -> 0 <= width c ->
  pend y = [] -> Forall (fun f => 0 <= lsb f) (fields (regs y r)) ->
  (forall x, In x xs -> for_reg c r x = true -> In (x_addr x) (addrs c r) /\ x_be x = -1) ->
  accesses (length (addrs c r)) (filter (for_reg c r) xs) es o ->
  heard c r (regs y r) es (filter (about r) (snd (run c y xs))) (regs (fst (run c y xs)) r) /\
  (In r (check_phase (fst (run c y xs))) <-> o <> []).
Proof.
  intros ND NE HW P0 HL HX Ac.
  assert (W : wf y) by (unfold wf; rewrite P0; constructor).
  destruct (run_filter c r xs y y W W (conj eq_refl eq_refl)) as [[S1 S2] O].
  assert (HP : Forall (proper c r) (filter (for_reg c r) xs)).
  { apply Forall_forall. intros x I. apply filter_In in I. destruct I as [I F]. unfold proper. destruct (HX x I F). auto. }
  destruct (history c r ND NE HW _ es o Ac HP y W ltac:(now rewrite P0) HL) as (H1 & H2 & _).
  rewrite O, S2. split; [exact H1|]. unfold check_phase. rewrite <- get_key, S1. destruct o as [|x o].
  - cbn [open_state] in H2. rewrite H2. tauto.
  - destruct H2 as (v & -> & _). split; discriminate.
Qed.
Theorem C107_defined n xs : (0 < n)%nat -> exists es o, accesses n xs es o.
Proof.
  intros Hn. induction xs as [|x xs IH] using rev_ind; [do 2 eexists; constructor|].
  destruct IH as (es & o & Ac). pose proof (accesses_open _ _ _ _ Hn Ac) as L.
  destruct (in_dec Z.eq_dec (x_addr x) (map x_addr o)) as [I|N].
  - do 2 eexists. eapply a_lost; eassumption.
  - assert (length (o ++ [x]) < n \/ length (o ++ [x]) = n)%nat as [LT|EQ] by (rewrite app_length; cbn; lia).
    + do 2 eexists. eapply a_open; eassumption.
    + do 2 eexists. eapply a_complete; eassumption.
Qed.
(** Each address once, in any order: one complete access. *)
Theorem C107_any_order A xs : A <> [] -> NoDup A -> Permutation (map x_addr xs) A ->
  accesses (length A) xs [Complete xs] [].
Proof.
  intros NE ND P. assert (NX : NoDup (map x_addr xs)) by (eapply Permutation_NoDup; [symmetry; exact P|exact ND]).
  assert (LX : length xs = length A) by (rewrite <- (map_length x_addr); now apply Permutation_length).
  destruct xs as [|x0 xs0] using rev_ind; [cbn in P; apply Permutation_nil in P; contradiction|]. clear IHxs0.
  assert (Pre : forall o, (length o < length A)%nat -> NoDup (map x_addr o) -> accesses (length A) o [] o).
  { induction o as [|z o IH] using rev_ind; intros L N; [constructor|].
    rewrite map_app in N. cbn [map] in N. apply a_open; [| |exact L].
    - apply IH; [rewrite app_length in L; cbn in L; lia|]. eapply NoDup_remove_1 in N. now rewrite app_nil_r in N.
    - apply NoDup_remove_2 in N. now rewrite app_nil_r in N. }
  rewrite map_app in NX. cbn [map] in NX. rewrite app_length in LX. cbn [length] in LX.
  change [Complete (xs0 ++ [x0])] with ([] ++ [Complete (xs0 ++ [x0])]). apply a_complete.
  - apply Pre; [lia|]. apply NoDup_remove_1 in NX. now rewrite app_nil_r in NX.
  - apply NoDup_remove_2 in NX. now rewrite app_nil_r in NX.
  - rewrite app_length. cbn. lia.
Qed.

Print Assumptions C107_history.
Print Assumptions C107_defined.
Print Assumptions C107_any_order.

(** Two registers of eight bytes on a four-byte bus. *)
Definition ex_reg := Reg 64 64 false false
  [Field 32 0 RW false 0 0 false []; Field 32 32 RW false 0 0 false []].
Definition ex_cfg (A : nat -> list Z) := Cfg
  (fun a _ => if existsb (Z.eqb a) (A 0%nat) then Some 0%nat else if existsb (Z.eqb a) (A 1%nat) then Some 1%nat else None)
  A 4 (fun _ => true) (fun _ => Map RtRW) (fun _ => [false; false]).
Definition ex_A (r : nat) : list Z := match r with O => [0; 4] | S _ => [8; 12] end.
Definition ex_y := Pr [] (fun _ => ex_reg).
(** Register 0 is written high word first, with half an access to register 1 in between,
    then is read with a wrong value; the half access is repeated and lost. *)
Example C107_example :
  let xs := [Xf KWrite 4 7 (-1); Xf KWrite 8 1 (-1); Xf KWrite 0 9 (-1); Xf KRead 0 9 (-1); Xf KRead 100 0 (-1);
             Xf KRead 4 8 (-1); Xf KWrite 8 2 (-1); Xf KWrite 12 2 (-1)] in
  let c := ex_cfg ex_A in
  snd (run c ex_y xs) = [OPublished 0 KWrite (7 * 2 ^ 32 + 9); ONotForMe; OMismatch 0;
                         OPublished 0 KRead (8 * 2 ^ 32 + 9); OCollision 1] /\
  map mirrored (fields (regs (fst (run c ex_y xs)) 0%nat)) = [9; 8] /\
  check_phase (fst (run c ex_y xs)) = [1%nat] /\
  accesses 2 (filter (for_reg c 1) xs) [Lost [Xf KWrite 8 1 (-1); Xf KWrite 8 2 (-1)]] [Xf KWrite 12 2 (-1)].
Proof.
  cbv zeta. split; [vm_compute; reflexivity|]. split; [vm_compute; reflexivity|]. split; [vm_compute; reflexivity|].
  change (accesses 2 ((([] ++ [Xf KWrite 8 1 (-1)]) ++ [Xf KWrite 8 2 (-1)]) ++ [Xf KWrite 12 2 (-1)])
            ([] ++ [Lost (([] ++ [Xf KWrite 8 1 (-1)]) ++ [Xf KWrite 8 2 (-1)])]) ([] ++ [Xf KWrite 12 2 (-1)])).
  apply a_open; [|cbn; tauto|cbn; lia]. apply a_lost; [|cbn; tauto]. apply a_open; [constructor|cbn; tauto|cbn; lia].
Qed.

(** An adapter that reports the byte enables of the bus word: the prediction of the upper word
    raises, the access stays pending, and the next access is lost. *)
Theorem C107_byte_enable_limit :
  let c := ex_cfg ex_A in
  let xs := [Xf KWrite 0 9 15; Xf KWrite 4 7 15] in
  snd (run c ex_y xs) = [ORaised 0] /\
  map mirrored (fields (regs (fst (run c ex_y xs)) 0%nat)) = [9; 0] /\
  check_phase (fst (run c ex_y xs)) = [0%nat] /\
  snd (run c ex_y (xs ++ [Xf KWrite 0 1 (-1)])) =
    [ORaised 0; OCollision 0; OPublished 0 KWrite (7 * 2 ^ 32 + 9)].
Proof. vm_compute. auto. Qed.
(** A read of one word and a write of the other are one access, with the first's kind. *)
Theorem C107_mixed_limit :
  let xs := [Xf KRead 0 9 (-1); Xf KWrite 4 7 (-1)] in
  snd (run (ex_cfg ex_A) ex_y xs) = [OMismatch 0; OPublished 0 KRead (7 * 2 ^ 32 + 9)].
Proof. reflexivity. Qed.
(** A register whose addresses repeat, as below three map levels (C31), is never predicted. *)
Definition seen_ok (c : cfg) (r : nat) (y : predictor) : Prop :=
  wf y /\ forall i, get_p r (pend y) = Some i -> NoDup (p_addr i) /\ incl (p_addr i) (addrs c r).
Lemma short (A B : list Z) : ~ NoDup A -> NoDup B -> incl B A -> length B <> length A.
Proof. intros NA NB I E. apply NA. eapply NoDup_incl_NoDup; [exact NB|rewrite E; auto|exact I]. Qed.
Theorem C107_repeated c r xs y : ~ NoDup (addrs c r) -> pend y = [] ->
  regs (fst (run c y xs)) r = regs y r /\
  forall o, In o (snd (run c y xs)) -> about r o = true -> o = OCollision r \/ o = OInternal r.
Proof.
  intros ND P0.
  assert (H : (seen_ok c r (fst (run c y xs)) /\ regs (fst (run c y xs)) r = regs y r) /\
    forall o, In o ([] ++ snd (run c y xs)) -> about r o = true -> o = OCollision r \/ o = OInternal r).
  { apply (run_machine_inv (write c) (fun z os => (seen_ok c r z /\ regs z r = regs y r) /\
      forall o, In o os -> about r o = true -> o = OCollision r \/ o = OInternal r)).
    - intros z os x [[[W HI] ER] HO]. unfold seen_ok.
      destruct (for_reg c r x) eqn:F.
      + pose proof (wf_step c z x W) as W'. unfold for_reg in F. unfold write in *.
        destruct (lookup c (x_addr x) _) as [q|]; [|discriminate]. apply Nat.eqb_eq in F as ->. cbv zeta in *.
        set (info := match get_p r (pend z) with Some i => i | None => _ end) in *.
        assert (II : NoDup (p_addr info) /\ incl (p_addr info) (addrs c r)).
        { subst info. destruct (get_p r (pend z)) as [i|]; [now apply HI|]. split; [constructor|easy]. }
        clearbody info. destruct II as [N1 I1].
        assert (OC : forall o, In o (os ++ [OCollision r]) -> about r o = true -> o = OCollision r \/ o = OInternal r).
        { intros o I A. apply in_app_or in I. destruct I as [I|[<-|[]]]; auto. }
        destruct (existsb (Z.eqb (x_addr x)) (p_addr info)) eqn:EC; destruct (index_of (x_addr x) (addrs c r)) as [i|] eqn:EI;
          cbn [fst snd pend regs app] in *.
        * pose proof (short _ _ ND N1 I1) as SH. apply Nat.eqb_neq in SH. rewrite SH in *. cbn [fst snd pend regs] in *.
          split; [|exact OC]. split; [split; [exact W'|]|exact ER]. rewrite get_del_eq by now apply nodup_set. discriminate.
        * split; [|intros o I A; apply in_app_or in I; destruct I as [I|[<-|[<-|[]]]]; auto].
          split; [split; [exact W'|]|exact ER]. rewrite get_del_eq by now apply nodup_set. discriminate.
        * assert (N2 : NoDup (p_addr info ++ [x_addr x])).
          { apply NoDup_Add with (a := x_addr x) (l := p_addr info); [|split; [exact N1|]].
            - rewrite <- (app_nil_r (p_addr info)) at 1. apply Add_app.
            - intros I. enough (existsb (Z.eqb (x_addr x)) (p_addr info) = true) by congruence.
              apply existsb_exists. exists (x_addr x). split; [exact I|apply Z.eqb_refl]. }
          assert (I2 : incl (p_addr info ++ [x_addr x]) (addrs c r)).
          { intros a I. apply in_app_or in I. destruct I as [I|[<-|[]]]; [auto|]. eapply nth_error_In, index_nth, EI. }
          pose proof (short _ _ ND N2 I2) as SH. apply Nat.eqb_neq in SH. rewrite SH in *. cbn [fst snd pend regs] in *.
          rewrite app_nil_r. split; [|exact HO]. split; [split; [exact W'|]|exact ER].
          rewrite get_set_eq. intros j E. injection E as <-. auto.
        * split; [|intros o I A; apply in_app_or in I; destruct I as [I|[<-|[]]]; auto].
          split; [split; [exact W'|]|exact ER]. rewrite get_set_eq. intros j E. injection E as <-. auto.
      + destruct (step_not_for c z x r W F) as (E1 & E2 & E3). split.
        * split; [split; [now apply wf_step|now rewrite E1]|congruence].
        * intros o I A. apply in_app_or in I. destruct I as [I|I]; [auto|].
          assert (I' : In o (filter (about r) (snd (write c z x)))) by (apply filter_In; auto). rewrite E3 in I'. destruct I'.
    - split; [|intros o []]. split; [|reflexivity]. split; unfold wf; rewrite P0; [constructor|discriminate]. }
  destruct H as [[_ ER] HO]. auto.
Qed.
Example C107_repeated_example :
  let A := get_physical_addresses r3_chain 0 0 8 in
  let c := ex_cfg (fun r => match r with O => A | S _ => [800; 804] end) in
  ~ NoDup (addrs c 0) /\
  snd (run c ex_y (map (fun a => Xf KWrite a 1 (-1)) A)) = [OCollision 0].
Proof.
  cbv zeta. split; [|vm_compute; reflexivity]. cbn [addrs ex_cfg]. intros H.
  vm_compute in H. repeat match goal with H : NoDup (_ :: _) |- _ => inversion H as [|? ? ?N ?ND]; subst; clear H end.
  cbn [In] in *. tauto.
Qed.
Print Assumptions C107_byte_enable_limit.
Print Assumptions C107_mixed_limit.
Print Assumptions C107_repeated.

Lemma heard_one c r rg os rg' l : heard c r rg [Complete l] os rg' ->
  exists x rest v, l = x :: rest /\ assembled (addrs c r) (width c) l v /\
    os = (if is_read (x_kind x) && check_on_read c r
             && negb (do_check (combine (fields rg) (nocheck c r)) (reg_get_mirrored rg) v (rights_of c r))
          then [OMismatch r] else []) ++ [OPublished r (x_kind x) v] /\
    rg' = fst (reg_predict rg v (pk (x_kind x)) FrontOrPredict (rights_of c r) (-1)).
Proof.
  intros H. remember [Complete l] as es1 eqn:E. destruct H as [|rg es os rg' l1 H1|rg es os rg' l1 x rest v ms H1 E1 HA EM].
  - discriminate.
  - destruct es as [|? [|]]; discriminate.
  - destruct es as [|? [|]]; [|discriminate|discriminate]. cbn [app] in E. injection E as ->.
    remember [] as es2 eqn:E2. destruct H1 as [|rg es os rg' l2 H1|rg es os rg' l2 x2 rest2 v2 ms2 H1 F1 HA2 EM2];
      try (destruct es; discriminate E2). exists x, rest, v. rewrite app_nil_l, EM. auto.
Qed.

(** What the bus monitor reports of the transfers of a write and of a read. *)
Definition seen_write (log : list busop) : list xfer := map (fun o => Xf KWrite (fst o) (snd o) (-1)) log.
Definition seen_read (d : dev) (bw : Z) (log : list Z) : list xfer :=
  map (fun a => Xf KRead a (Z.land (d a) (Z.shiftl 1 (bw * 8) - 1)) (-1)) log.

Lemma write_assembled value bw A log : 0 < bw -> 0 <= value < 2 ^ (8 * bw * Z.of_nat (length A)) ->
  Permutation log (write_ops value bw 0 A) -> NoDup A -> assembled A bw (seen_write log) value.
Proof.
  intros Hbw Hv P ND i Hi. split.
  - intros T. assert (Hlt : i < 8 * bw * Z.of_nat (length A)).
    { destruct (Z_lt_le_dec i (8 * bw * Z.of_nat (length A))); [auto|].
      rewrite (Z.bits_above_log2 value i) in T; [discriminate|lia|].
      destruct (Z.eq_dec value 0) as [->|]; [cbn; rewrite Z.testbit_0_l in T; discriminate|].
      apply Z.log2_lt_pow2; [lia|]. eapply Z.lt_le_trans; [apply Hv|]. apply Z.pow_le_mono_r; lia. }
    set (j := Z.to_nat (i / (8 * bw))).
    assert (Hj : Z.of_nat j = i / (8 * bw)) by (unfold j; rewrite Z2Nat.id; [auto|]; apply Z.div_pos; lia).
    pose proof (Z.div_mod i (8 * bw) ltac:(lia)) as DM. pose proof (Z.mod_pos_bound i (8 * bw) ltac:(lia)) as MB.
    assert (Hjl : (j < length A)%nat) by nia.
    destruct (nth_error A j) as [a|] eqn:E; [|apply nth_error_None in E; lia].
    set (w := Z.land (Z.shiftr value (Z.of_nat j * bw * 8)) (Z.shiftl 1 (bw * 8) - 1)).
    exists (Xf KWrite a w (-1)), j. split.
    + unfold seen_write. apply in_map_iff. exists (a, w). split; [reflexivity|].
      apply (Permutation_in _ (Permutation_sym P)). apply write_ops_in. exists j. split; [exact E|]. subst w. reflexivity.
    + split; [exact E|]. split; [nia|]. cbn [x_data]. subst w.
      rewrite mask_ones, Z.land_spec, Z.shiftr_spec by nia. rewrite Z.testbit_ones_nonneg by nia.
      replace (i - 8 * bw * Z.of_nat j + Z.of_nat j * bw * 8) with i by lia. rewrite T. apply Z.ltb_lt. nia.
  - intros (x & j & I & E & L & T). unfold seen_write in I. apply in_map_iff in I. destruct I as ([a v] & <- & I).
    cbn [x_addr x_data fst snd] in *. apply (Permutation_in _ P) in I. apply C30_slices in I; [|exact Hbw].
    destruct I as (j' & Hj' & B). rewrite (nodup_nth A j' j a ND Hj' E) in B. rewrite (B (i - 8 * bw * Z.of_nat j)) in T by lia.
    apply andb_true_iff in T. destruct T as [_ T]. rewrite <- T. f_equal. lia.
Qed.
Lemma read_assembled ok d bw A : 0 < bw -> NoDup A -> forall ops st v done,
  (forall a cb, In (a, cb) ops -> ok a = true /\ exists j, nth_error A j = Some a /\ cb = Z.of_nat j * bw) ->
  assembled A bw done v ->
  assembled A bw (done ++ seen_read d bw (map fst ops)) (fst (fst (read_loop ok d bw st v ops))) /\
  snd (read_loop ok d bw st v ops) = map fst ops.
Proof.
  intros Hbw ND. induction ops as [|[a cb] ops IH]; intros st v done H HA; cbn [read_loop map seen_read fst].
  - rewrite app_nil_r. auto.
  - destruct (H a cb (or_introl eq_refl)) as (Ok & j & Hj & ->). rewrite Ok.
    set (x := Xf KRead a (Z.land (d a) (Z.shiftl 1 (bw * 8) - 1)) (-1)).
    assert (HA' : assembled A bw (done ++ [x]) (Z.lor v (Z.shiftl (x_data x) (Z.of_nat j * bw * 8)))).
    { apply assembled_snoc; [exact ND|lia|exact HA|]. cbn [x x_addr].
      destruct (index_in a A (nth_error_In _ _ Hj)) as [i Hi]. rewrite Hi. f_equal.
      exact (nodup_nth A i j a ND (index_nth _ _ _ Hi) Hj). }
    specialize (IH IS_OK _ _ (fun a0 c0 I => H a0 c0 (or_intror I)) HA').
    cbn [x x_data] in IH. destruct (read_loop ok d bw IS_OK _ ops) as [[v' st'] log]. cbn [fst snd] in *.
    destruct IH as [IH1 IH2]. split; [|now rewrite IH2]. rewrite <- app_assoc in IH1. exact IH1.
Qed.

(** ** C108: the transfers of an access through the map, observed in any order and among
    transfers to other registers, are predicted as that access. *)
Section C108.
Context (c : cfg) (r : nat) (l : level) (up : list level) (base n : Z).
Context (Hu : Forall usable (l :: up)) (Hun : uniform l up) (Hn : 0 < n) (Hs : splits_at_top l up n).
Context (HA : addrs c r = get_physical_addresses (l :: up) base 0 n).
Context (HW : width c = system_width (l :: up) base n).

Lemma map_facts : NoDup (addrs c r) /\ addrs c r <> [] /\ 0 < width c /\ n <= Z.of_nat (length (addrs c r)) * width c.
Proof.
  destruct (C31_distinct l up base n Hu Hun Hn Hs) as (ND & NW & CV). rewrite HA, HW. split; [exact ND|].
  split; [now apply gpa_nonempty|]. split; [|exact CV].
  destruct NW as [(l0 & Hl0 & <-) _]. rewrite Forall_forall in Hu. apply Hu, Hl0.
Qed.
Lemma predicted y xs seen k v :
  pend y = [] -> Forall (fun f => 0 <= lsb f) (fields (regs y r)) ->
  Permutation (filter (for_reg c r) xs) seen -> Permutation (map x_addr seen) (addrs c r) ->
  (forall x, In x seen -> x_be x = -1 /\ x_kind x = k) -> assembled (addrs c r) (width c) seen v ->
  filter (about r) (snd (run c y xs)) =
    (if is_read k && check_on_read c r
        && negb (do_check (combine (fields (regs y r)) (nocheck c r)) (reg_get_mirrored (regs y r)) v (rights_of c r))
     then [OMismatch r] else []) ++ [OPublished r k v] /\
  regs (fst (run c y xs)) r = fst (reg_predict (regs y r) v (pk k) FrontOrPredict (rights_of c r) (-1)) /\
  ~ In r (check_phase (fst (run c y xs))).
Proof.
  intros P0 HL P PA HK As. destruct map_facts as (ND & NE & HW0 & _).
  assert (PX : Permutation (map x_addr (filter (for_reg c r) xs)) (addrs c r))
    by (eapply Permutation_trans; [apply Permutation_map, P|exact PA]).
  destruct (C107_history c r xs [Complete (filter (for_reg c r) xs)] [] y ND NE ltac:(lia) P0 HL) as [H1 H2].
  - intros x I F. assert (I' : In x (filter (for_reg c r) xs)) by (apply filter_In; auto). split.
    + apply (Permutation_in _ PX). now apply in_map.
    + apply HK. now apply (Permutation_in _ P).
  - now apply C107_any_order.
  - apply heard_one in H1. destruct H1 as (x & rest & v' & E & As' & EO & ER).
    assert (EK : x_kind x = k).
    { apply HK. apply (Permutation_in _ P). rewrite E. now left. }
    assert (EV : v' = v).
    { apply (assembled_fun (addrs c r) (width c) seen); [lia|auto| |exact As].
      intros i Hi. rewrite (As' i Hi). split; intros (z & j & I & K); exists z, j; (split; [|exact K]).
      - now apply (Permutation_in _ P).
      - now apply (Permutation_in _ (Permutation_sym P)). }
    rewrite EK, EV in *. split; [exact EO|]. split; [exact ER|]. rewrite H2. tauto.
Qed.

Theorem C108_write ok order d st value d' st' log y xs :
  reorders order -> (forall a, In a (addrs c r) -> ok a = true) -> 0 <= value < 2 ^ (8 * n) ->
  bus_write ok order (width c) 0 d st (addrs c r) [value] = (d', st', [log]) ->
  pend y = [] -> Forall (fun f => 0 <= lsb f) (fields (regs y r)) ->
  Permutation (filter (for_reg c r) xs) (seen_write log) ->
  filter (about r) (snd (run c y xs)) = [OPublished r KWrite value] /\
  regs (fst (run c y xs)) r = fst (reg_predict (regs y r) value PWrite FrontOrPredict (rights_of c r) (-1)) /\
  ~ In r (check_phase (fst (run c y xs))).
Proof.
  intros Ho Hok Hv E P0 HL P. destruct map_facts as (ND & NE & HW0 & CV).
  cbn [bus_write] in E.
  destruct (write_holds ok order d st (width c) value (addrs c r) Ho ND Hok) as (_ & _ & _ & EL).
  cbv zeta in EL. destruct (write_loop ok d st _) as [[d1 st1] log1]. cbn [snd] in EL. injection E as _ _ <-. subst log1.
  pose proof (Ho (write_ops value (width c) 0 (addrs c r))) as PO.
  apply (predicted y xs _ KWrite value P0 HL P).
  - unfold seen_write. rewrite map_map. cbn [x_addr].
    rewrite <- (write_ops_fst value (width c) 0 (addrs c r)) at 2. now apply Permutation_map.
  - intros x I. unfold seen_write in I. apply in_map_iff in I. destruct I as (z & <- & _). auto.
  - apply write_assembled; auto. split; [lia|]. eapply Z.lt_le_trans; [apply Hv|]. apply Z.pow_le_mono_r; nia.
Qed.
(** So after rg.write(v) the register is what automatic prediction would have made of it. *)
Corollary C108_write_as_auto ok order d st rg v d' st' log y xs :
  reorders order -> (forall a, In a (addrs c r) -> ok a = true) ->
  let value := fst (reg_write rg v (rights_of c r)) in
  0 <= value < 2 ^ (8 * n) ->
  bus_write ok order (width c) 0 d st (addrs c r) [value] = (d', st', [log]) ->
  pend y = [] -> regs y r = reg_set rg v -> Forall (fun f => 0 <= lsb f) (fields rg) ->
  Permutation (filter (for_reg c r) xs) (seen_write log) ->
  regs (fst (run c y xs)) r = snd (reg_write rg v (rights_of c r)).
Proof.
  intros Ho Hok value Hv E P0 ER HL P. assert (HL' : Forall (fun f => 0 <= lsb f) (fields (regs y r))).
  { rewrite ER. cbn [reg_set with_fields fields]. apply Forall_map. eapply Forall_impl; [|exact HL]. intros f. destruct f. trivial. }
  destruct (C108_write ok order d st value d' st' log y xs Ho Hok Hv E P0 HL' P) as (_ & -> & _). rewrite ER. reflexivity.
Qed.
Theorem C108_read ok order d st v st' log y xs :
  reorders order -> (forall a, In a (addrs c r) -> ok a = true) ->
  bus_read ok order (width c) 0 d st (addrs c r) 1 = ([v], st', [log]) ->
  pend y = [] -> Forall (fun f => 0 <= lsb f) (fields (regs y r)) ->
  Permutation (filter (for_reg c r) xs) (seen_read d (width c) log) ->
  filter (about r) (snd (run c y xs)) =
    (if check_on_read c r && negb (do_check (combine (fields (regs y r)) (nocheck c r)) (reg_get_mirrored (regs y r)) v (rights_of c r))
     then [OMismatch r] else []) ++ [OPublished r KRead v] /\
  regs (fst (run c y xs)) r = reg_read (regs y r) v (rights_of c r) /\
  ~ In r (check_phase (fst (run c y xs))).
Proof.
  intros Ho Hok E P0 HL P. destruct map_facts as (ND & NE & HW0 & CV). cbn [bus_read] in E.
  pose proof (Ho (read_ops (width c) 0 (addrs c r))) as PO.
  destruct (read_assembled ok d (width c) (addrs c r) HW0 ND (order (read_ops (width c) 0 (addrs c r))) st 0 []) as [A1 A2].
  - intros a cb I. apply (Permutation_in _ PO) in I. apply read_ops_in in I as (j & Hj & Hcb).
    split; [apply Hok; eapply nth_error_In; exact Hj|]. exists j. split; [exact Hj|]. lia.
  - apply assembled_nil.
  - destruct (read_loop ok d _ st 0 _) as [[v1 st1] log1]. cbn [fst snd app] in *. injection E as -> _ <-. subst log1.
    apply (predicted y xs _ KRead v P0 HL P); [| |exact A1].
    + unfold seen_read. rewrite map_map. cbn [x_addr]. rewrite map_id.
      rewrite <- (read_ops_fst (width c) 0 (addrs c r)) at 2. now apply Permutation_map.
    + intros x I. unfold seen_read in I. apply in_map_iff in I. destruct I as (z & <- & _). auto.
Qed.
End C108.
Print Assumptions C108_write.
Print Assumptions C108_write_as_auto.
Print Assumptions C108_read.

(** A sixteen-byte register two maps deep, its four words observed in reverse. *)
Definition ex2_reg := Reg 128 128 false false [Field 64 0 RW false 0 0 false []; Field 64 64 W1C false 255 255 false []].
Definition ex2_cfg := Cfg
  (fun a _ => if existsb (Z.eqb a) [4400; 4404; 4384; 4388] then Some 0%nat else Some 1%nat)
  (fun r => match r with O => [4400; 4404; 4384; 4388] | S _ => [0; 4] end) 4 (fun _ => true) (fun _ => Map RtRW)
  (fun _ => [false; false]).
Example C108_example :
  let value := 0x0f112233445566778899aabb in
  let log := [(4400, 0x8899aabb); (4404, 0x44556677); (4384, 0x0f112233); (4388, 0)] in
  let y := Pr [] (fun _ => ex2_reg) in
  let xs := Xf KWrite 0 5 (-1) :: rev (seen_write log) in
  (exists d', bus_write (fun _ => true) (fun l => l) 4 0 (fun _ => 7) NOT_OK (addrs ex2_cfg 0) [value] = (d', IS_OK, [log])) /\
  addrs ex2_cfg 0 = get_physical_addresses [ex_in; ex_top] 16 0 16 /\ width ex2_cfg = system_width [ex_in; ex_top] 16 16 /\
  snd (run ex2_cfg y xs) = [OPublished 0 KWrite value] /\
  map mirrored (fields (regs (fst (run ex2_cfg y xs)) 0%nat)) = [0x445566778899aabb; 0xcc].
Proof. cbv zeta. split; [eexists; vm_compute; reflexivity|]. vm_compute. auto. Qed.

(** The predictor shifts by its own map's width: below a wider top map the words of a
    register behind a one-byte map overlap the wrong way and are not put together. *)
Theorem C108_width_limit :
  let chain := [Level 1 true LITTLE_ENDIAN 0; Level 4 true LITTLE_ENDIAN 0] in
  let A := get_physical_addresses chain 0 0 4 in
  let c := Cfg (fun _ _ => Some 0%nat) (fun _ => A) 4 (fun _ => false) (fun _ => Map RtRW) (fun _ => [false]) in
  let rg := Reg 32 32 false false [Field 32 0 RW false 0 0 false []] in
  let log := write_ops 0x12345678 (system_width chain 0 4) 0 A in
  exists v, snd (run c (Pr [] (fun _ => rg)) (seen_write log)) = [OPublished 0 KWrite v] /\ v <> 0x12345678 /\
    map mirrored (fields (regs (fst (run c (Pr [] (fun _ => rg)) (seen_write log))) 0%nat)) = [0x78].
Proof. eexists. split; [vm_compute; reflexivity|]. split; [discriminate|vm_compute; reflexivity]. Qed.
Print Assumptions C108_width_limit.
