(** Properties C166-C170: HDL paths, back door accesses to registers and the register access test. *)
From Coq Require Import ZArith List Bool String Ascii Lia ZifyBool Sorted.
From Verif Require Import RegFieldModel RegFieldSpec RegFieldProofs RegModel RegSpec RegProofs RegSeqModel RegSeqSpec RegSeqProofs RegSeqProps.
From Verif Require Import HdlModel HdlSpec HdlProofs.
Import ListNotations.
Open Scope Z_scope.

(** C166: the full HDL paths of a block. *)
Theorem C166_block : forall kind sep bs, Forall (clear_paths kind) bs ->
  forall x, In x (fst (block_paths kind sep bs)) <-> x <> EmptyString /\ exists ps, picks kind bs ps /\ full sep ps = x.
Proof.
  intros kind sep bs HC x. destruct (block_paths_ok kind sep bs HC) as (I & _). rewrite I. destruct x; cbn; intuition congruence.
Qed.
Print Assumptions C166_block.
(** A register's full HDL paths: each of its groups of slices, below every path of its block. *)
Theorem C166_register : forall c k, nearest (blocks c) k -> Forall (clear_paths k) (blocks c) ->
  forall con, In con (fst (full_hdl_paths c)) <->
    exists own con0 ps, lookup k (rpaths c) = Some own /\ In con0 own /\ picks k (blocks c) ps /\
      full "." ps <> EmptyString /\ con = map (below (full "." ps)) con0.
Proof.
  intros c k HN HC con. apply nearest_kind in HN. unfold full_hdl_paths. rewrite HN. destruct (lookup k (rpaths c)) as [own|] eqn:E.
  2: { cbn. split; [tauto|]. intros (own & con0 & ps & X & _). congruence. }
  pose proof (C166_block k "." (blocks c) HC) as HB. destruct (block_paths k "." (blocks c)) as [par e]. cbn [fst] in *.
  rewrite in_flat_map. split.
  - intros (con0 & H0 & H1). apply in_map_iff in H1. destruct H1 as (x & <- & Hx). apply HB in Hx. destruct Hx as (N & ps & P & <-).
    exists own, con0, ps. repeat (split; auto). apply map_ext. intros s. apply below_eq.
  - intros (own' & con0 & ps & X & H0 & P & N & ->). replace own' with own in * by congruence. exists con0. split; auto.
    apply in_map_iff. exists (full "." ps). split; [apply map_ext; intros s; apply below_eq|]. apply HB. eauto.
Qed.
Print Assumptions C166_register.
(** An error is reported if the register or a block on the way has no path for the abstraction. *)
Theorem C166_errors : forall c k, nearest (blocks c) k ->
  (snd (full_hdl_paths c) = 0%nat <-> lookup k (rpaths c) <> None /\ ~ misses k (blocks c)) /\
  (snd (full_hdl_paths c) <> 0%nat -> snd (full_hdl_paths c) = 1%nat).
Proof.
  intros c k HN. apply nearest_kind in HN. unfold full_hdl_paths. rewrite HN. destruct (lookup k (rpaths c)) as [own|] eqn:E.
  - destruct (block_errs k "." (blocks c)) as [[E1 M]|[E1 M]]; destruct (block_paths k "." (blocks c)) as [par e]; cbn [snd] in *; subst e.
    + split; [|congruence]. split; [intros _; split; [discriminate|auto]|auto].
    + split; [|auto]. split; [discriminate|]. intros [_ X]. tauto.
  - cbn. split; [|auto]. split; [discriminate|]. intros [X _]. congruence.
Qed.
Print Assumptions C166_errors.
(** Slices are added to the last group, or open a new one. *)
Theorem C166_slices : forall k xs ps, lookup k ps = None ->
  let ps' := fold_left (fun ps (x : slice_ * bool) => add_slice ps k (spath (fst x)) (soff (fst x)) (ssize (fst x)) (snd x)) xs ps in
  groups_of xs (match lookup k ps' with Some gs => gs | None => [] end) /\
  forall k', k' <> k -> lookup k' ps' = lookup k' ps.
Proof.
  intros k xs ps HN. cbv zeta. induction xs as [|x xs IH] using rev_ind.
  - cbn [fold_left]. rewrite HN. split; auto. exists []. repeat split; constructor.
  - rewrite fold_left_app. cbn [fold_left]. set (ps1 := fold_left _ xs ps) in *. destruct IH as [IG IO]. split.
    + unfold add_slice at 1. rewrite lookup_entry. set (old := match lookup k ps1 with Some gs => gs | None => [] end) in *.
      assert (ES : Slice (spath (fst x)) (soff (fst x)) (ssize (fst x)) = fst x) by (destruct (fst x); reflexivity). rewrite ES.
      destruct IG as (segs & C & Mp & F1 & F2). destruct (rev old) as [|lst bef] eqn:ER.
      * assert (EO : old = []) by (rewrite <- (rev_involutive old), ER; reflexivity). rewrite EO in Mp. destruct segs; [|discriminate].
        cbn in C. subst xs. exists [[x]]. repeat split; cbn; auto. constructor; [|constructor]. exists x, []. auto.
      * assert (EO : old = rev bef ++ [lst]) by (rewrite <- (rev_involutive old), ER; reflexivity). destruct (snd x) eqn:EX.
        -- exists (segs ++ [[x]]). rewrite List.concat_app, map_app, C, Mp. cbn. split; auto. split; auto. split.
           ++ apply Forall_app. split; auto. constructor; [|constructor]. exists x, []. auto.
           ++ destruct segs as [|s0 segs]; [constructor|]. cbn in *. apply Forall_app. split; auto. constructor; [|constructor]. exists x, []. auto.
        -- rewrite EO in Mp. destruct (exists_last (l := segs)) as (s1 & sl & ->).
           { intros ->. cbn in Mp. now destruct (rev bef). }
           rewrite map_app in Mp. cbn in Mp. apply app_inj_tail in Mp. destruct Mp as [M1 M2].
           apply Forall_app in F1. destruct F1 as [F1 F1l]. apply Forall_cons_iff in F1l. destruct F1l as [(y & l & -> & FL) _].
           exists (s1 ++ [(y :: l) ++ [x]]). rewrite !List.concat_app, map_app in *. cbn [List.concat map] in *. rewrite app_nil_r in *.
           split; [rewrite <- C; now rewrite <- app_assoc|]. split; [rewrite map_app; cbn in *; now rewrite M1, <- M2|]. split.
           ++ apply Forall_app. split; auto. constructor; [|constructor]. exists y, (l ++ [x]). split; auto. apply Forall_app. auto.
           ++ destruct s1 as [|s0 s1]; [constructor|]. cbn in *. apply Forall_app in F2. destruct F2 as [F2 F3]. apply Forall_app. split; auto.
              apply Forall_cons_iff in F3. destruct F3 as [(z & l' & Ez & Hz) _]. constructor; [|constructor]. exists y, (l ++ [x]). split; auto. congruence.
    + intros k' Hk. unfold add_slice at 1. rewrite lookup_other by auto. apply IO; auto.
Qed.
Print Assumptions C166_slices.

(** A register with two copies, in a block with two instances in a top block with its default path. *)
Definition sl (p : string) : slice_ := Slice p (-1) (-1).
Definition ex_cfg : cfg :=
  Cfg [BNode "" [("RTL", ["u0"; "u1"])] []; BNode "RTL" [("RTL", ["top.dut"])] []]%string
      [("RTL", [[sl "ctrl"]; [sl "shadow"]])]%string false (Map RtRW) [false; false] true true.
Example C166_example :
  nearest (blocks ex_cfg) "RTL" /\ Forall (clear_paths "RTL") (blocks ex_cfg) /\
  full_hdl_paths ex_cfg = ([[sl "top.dut.u0.ctrl"]; [sl "top.dut.u1.ctrl"]; [sl "top.dut.u0.shadow"]; [sl "top.dut.u1.shadow"]], 0%nat)%string /\
  add_slice (add_slice (add_slice [] "RTL" "hi" 4 4 false) "RTL" "lo" 0 4 false) "RTL" "all" (-1) (-1) true
  = [("RTL", [[Slice "hi" 4 4; Slice "lo" 0 4]; [sl "all"]])]%string.
Proof.
  split; [|split; [|split; reflexivity]].
  - left. exists [BNode "" [("RTL", ["u0"; "u1"])] []]%string, (BNode "RTL" [("RTL", ["top.dut"])] [])%string, []. repeat split; auto. discriminate.
  - unfold blocks, ex_cfg. repeat (apply Forall_cons; [intros own [= <-]; right; (split; [discriminate|]); cbn; intuition discriminate|]). apply Forall_nil.
Qed.
(** The condition on empty paths is needed: beside others, an empty path of the top block is lost. *)
Theorem C166_empty_limit :
  let bs := [BNode "RTL" [("RTL", ["u0"])] []; BNode "RTL" [("RTL", [""; "a"])] []]%string in
  picks "RTL" bs ["";"u0"]%string /\ full "." ["";"u0"]%string = "u0"%string /\
  fst (block_paths "RTL" "." bs) = ["a.u0"]%string.
Proof.
  split; [|split; reflexivity].
  apply (picks_own _ _ _ ["u0"]%string "u0"%string [""]%string); try reflexivity; [now left|].
  apply (picks_own _ _ _ [""; "a"]%string ""%string []); try reflexivity; [now left|]. constructor.
Qed.
Print Assumptions C166_empty_limit.

(** C167: writing through the back door. Every signal of the register gets the value that a write
    with the rights of the register's default map would leave, from the value the signals had. *)
Theorem C167_write : forall H (wr : @D H -> via -> Z -> @D H * bool) c (s : st H) m v locs cur,
  well_formed (rg s) -> held s = false -> in_file c = false ->
  whole (sigs s) (fst (full_hdl_paths c)) locs -> locs <> [] -> Forall (holds (sigs s) (n_bits (rg s)) cur) locs ->
  snd (full_hdl_paths c) = 0%nat ->
  exists s' fv, write wr c s true v m = (s', Done true fv, []) /\ held s' = false /\ rest s' = rest s /\
    (forall l, In l locs -> signal (sigs s') l = Some fv) /\ (forall l, ~ In l locs -> signal (sigs s') l = signal (sigs s) l) /\
    made_of (fields (rg s)) fv (fun f i => write_bit (write_effect (get_access f (dmap c))) (written f) (Z.testbit cur i) (Z.testbit v i)) /\
    Forall2 (takes fv true) (fields (rg s)) (fields (rg s')).
Proof.
  intros H wr c s m v locs cur HW Hh Hi HP HN HF He. destruct (wf_ready _ HW) as [HR Hn].
  unfold write, uses_back. rewrite paths_has, Hi by (intros E; rewrite E in HP; inversion HP; subst; congruence). cbn [andb orb].
  destruct (back_write_ok c s v locs cur HR Hn (proj1 (proj2 HW)) Hh Hi HP HN HF) as (s' & fv & E & h1 & h2 & _ & h3 & h4 & h5 & _ & h6).
  exists s', fv. unfold path_errs in E. rewrite He in E. auto 10.
Qed.
Print Assumptions C167_write.
(** Signals that differ: an error, status NOT_OK, the design and the mirror stay as they are. *)
Theorem C167_differ : forall H (wr : @D H -> via -> Z -> @D H * bool) c (s : st H) m v loc locs cur,
  well_formed (rg s) -> held s = false -> in_file c = false ->
  whole (sigs s) (fst (full_hdl_paths c)) (loc :: locs) -> holds (sigs s) (n_bits (rg s)) cur loc ->
  Forall (fun l => exists x, signal (sigs s) l = Some x) locs -> Exists (fun l => ~ holds (sigs s) (n_bits (rg s)) cur l) locs ->
  snd (full_hdl_paths c) = 0%nat ->
  exists s', write wr c s true v m = (s', Done false v, [EDiffer]) /\ sigs s' = sigs s /\ rest s' = rest s /\ held s' = false /\
    Forall2 (fun f f' => mirrored f' = mirrored f /\ written f' = written f) (fields (rg s)) (fields (rg s')).
Proof.
  intros H wr c s m v loc locs cur HW Hh Hi HP H1 HF HE He. destruct (wf_ready _ HW) as [HR Hn].
  unfold write, uses_back. rewrite paths_has, Hi by (intros E; rewrite E in HP; inversion HP). cbn [andb orb].
  destruct (back_write_differ c s v loc locs cur HR Hn Hh Hi HP H1 HF HE) as (r' & E & h6). unfold path_errs in E. rewrite He in E.
  eexists. split; [exact E|]. repeat (split; auto). cbn [rg]. eapply F2_impl; [|exact h6]. intros f f' (_ & _ & _ & a & b). auto.
Qed.
Print Assumptions C167_differ.

Definition ex_tree (a b c d : Z) : node :=
  Scope [("top", Scope [("dut", Scope [("u0", Scope [("ctrl", Sig a); ("shadow", Sig b)]); ("u1", Scope [("ctrl", Sig c); ("shadow", Sig d)]); ("other", Sig 7)])])]%string.
(** a read/write field and a write-one-to-clear field *)
Definition ex_r : reg := Reg 8 6 true false [Field 3 0 RW false 5 5 false []; Field 3 4 W1C false 7 7 false []].
Definition ex_locs : list (list string) :=
  [["top"; "dut"; "u0"; "ctrl"]; ["top"; "dut"; "u1"; "ctrl"]; ["top"; "dut"; "u0"; "shadow"]; ["top"; "dut"; "u1"; "shadow"]]%string.
Lemma ex_wf : well_formed ex_r.
Proof.
  split; [cbn; lia|]. split.
  { split.
    - repeat (apply Forall_cons; [cbn; lia|]). apply Forall_nil.
    - unfold pairwise_disjoint. cbn. repeat (apply FOP_cons; [repeat (apply Forall_cons; [unfold disjoint, covers; cbn; lia|]); apply Forall_nil|]).
      apply FOP_nil. }
  split. { unfold in_order. cbn. repeat (apply SSorted_cons; [|repeat (apply Forall_cons; [cbn; lia|]); apply Forall_nil]). apply SSorted_nil. }
  repeat (apply Forall_cons; [cbn; unfold fits_in; repeat split; try lia; constructor|]). apply Forall_nil.
Qed.
Lemma ex_whole a b c d : whole (ex_tree a b c d) (fst (full_hdl_paths ex_cfg)) ex_locs.
Proof.
  change (fst (full_hdl_paths ex_cfg)) with [[sl "top.dut.u0.ctrl"]; [sl "top.dut.u1.ctrl"]; [sl "top.dut.u0.shadow"]; [sl "top.dut.u1.shadow"]]%string.
  unfold whole, ex_locs. repeat (apply Forall2_cons; [eexists; split; [reflexivity|]; split; [cbn; lia|]; eexists; split; [apply split_is_names|reflexivity]|]).
  apply Forall2_nil.
Qed.
Definition no_wr {H} (d : @D H) (m : via) (v : Z) : @D H * bool := (d, true).
Definition no_rd {H} (d : @D H) (m : via) : @D H * Z * bool := (d, 0, true).
Example C167_example :
  well_formed ex_r /\ whole (ex_tree 0x75 0x75 0x75 0x75) (fst (full_hdl_paths ex_cfg)) ex_locs /\
  Forall (holds (ex_tree 0x75 0x75 0x75 0x75) 8 0x75) ex_locs /\
  (let '(s', o, es) := write no_wr ex_cfg (St ex_r (ex_tree 0x75 0x75 0x75 0x75) tt false) true 0x22 (Map RtRW) in
   sigs s' = ex_tree 0x52 0x52 0x52 0x52 /\ o = Done true 0x52 /\ es = [] /\ reg_get_mirrored (rg s') = 0x52) /\
  (let '(s', o, es) := write no_wr ex_cfg (St ex_r (ex_tree 0x75 0x75 0x74 0x75) tt false) true 0x22 (Map RtRW) in
   sigs s' = ex_tree 0x75 0x75 0x74 0x75 /\ o = Done false 0x22 /\ es = [EDiffer] /\ reg_get_mirrored (rg s') = 0x75).
Proof.
  split; [exact ex_wf|]. split; [apply ex_whole|]. split.
  { repeat (apply Forall_cons; [eexists; split; reflexivity|]). apply Forall_nil. }
  split; vm_compute; auto.
Qed.

(** C168: reading through the back door. *)
Theorem C168_read : forall H (rd : @D H -> via -> @D H * Z * bool) c (s : st H) m locs cur,
  well_formed (rg s) -> held s = false -> in_file c = false ->
  whole (sigs s) (fst (full_hdl_paths c)) locs -> locs <> [] -> Forall (holds (sigs s) (n_bits (rg s)) cur) locs ->
  snd (full_hdl_paths c) = 0%nat ->
  exists s' v es, read rd c s true m = (s', Done true v, es) /\ held s' = false /\ rest s' = rest s /\
    (forall i, 0 <= i -> (forall f, In f (fields (rg s)) -> covers f i -> ~ hidden (access f)) -> Z.testbit v i = Z.testbit cur i) /\
    (forall f i, In f (fields (rg s)) -> covers f i -> hidden (access f) -> Z.testbit v i = false) /\
    (forall l, In l locs -> exists x, signal (sigs s') l = Some x /\ forall f i, In f (fields (rg s)) -> covers f i ->
        Z.testbit x i = read_bit (read_effect (access f)) (Z.testbit cur i) (Z.testbit cur i)) /\
    (forall l, ~ In l locs -> signal (sigs s') l = signal (sigs s) l) /\
    Forall2 (takes v false) (fields (rg s)) (fields (rg s')) /\
    (forall e, In e es -> e = ECheck) /\
    (es = [] <-> bcheck c = false \/ forall i, 0 <= i -> (forall f, In (f, true) (combine (fields (rg s)) (nc c)) -> ~ covers f i) ->
        (forall f, In f (fields (rg s)) -> covers f i -> Z.testbit v i = Z.testbit (desired f) (i - lsb f)) /\
        ((forall f, In f (fields (rg s)) -> ~ covers f i) -> Z.testbit v i = false)).
Proof.
  intros H rd c s m locs cur HW Hh Hi HP HN HF He. destruct (wf_ready _ HW) as [HR Hn].
  unfold read, locked_read, uses_back. rewrite Hh, paths_has, Hi by (intros E; rewrite E in HP; inversion HP; subst; congruence). cbn [andb orb].
  destruct (back_read_ok c (lock s true) locs cur HR Hn Hi HP HN HF) as (s' & es & E & h1 & h2 & h3 & h4 & _ & h5 & Ees).
  cbn [lock rg sigs rest held] in *. cbv zeta in E, h5, Ees. set (v := Z.land cur _) in *. rewrite E. cbn [andb]. rewrite app_nil_r.
  unfold path_errs in Ees. rewrite He in Ees. cbn [repeat app] in Ees. destruct (seen_bits (fields (rg s)) cur HR) as (B1 & B2). fold v in B1, B2.
  assert (HID : forall f, is_in (access f) [WO; WOC; WOS; WO1] = true <-> hidden (access f)).
  { intros f. unfold hidden. destruct (access f); cbn; split; auto; try discriminate; intuition discriminate. }
  exists (lock s' false), v, es. split; [reflexivity|]. split; [reflexivity|]. split; [exact h2|]. split; [|split; [|split; [|split; [|split; [|split]]]]].
  - intros i Hi0 HF0. destruct (coverb (fields (rg s)) i) eqn:EC.
    + apply coverb_true in EC. destruct EC as (f & Hf & Hc). rewrite (B1 f i Hf Hc).
      destruct (is_in (access f) [WO; WOC; WOS; WO1]) eqn:EA; auto. exfalso. apply (HF0 f Hf Hc). now apply HID.
    + apply B2; auto. now apply coverb_false.
  - intros f i Hf Hc Hd. rewrite (B1 f i Hf Hc). now rewrite (proj2 (HID f) Hd).
  - intros l Hl. cbn [lock sigs]. destruct (after_read_bits (fields (rg s)) cur HR) as (A1 & A2).
    assert (LB : forall f i, Z.testbit cur i = Z.testbit cur i -> left_bit f (Z.testbit cur i) = read_bit (read_effect (access f)) (Z.testbit cur i) (Z.testbit cur i)).
    { intros f i _. unfold left_bit. now destruct (read_effect (access f)). }
    destruct (after_read (fields (rg s)) cur =? cur) eqn:EA.
    + rewrite h4. rewrite Forall_forall in HF. destruct (HF l Hl) as (x & Hx & Mx). exists x. split; auto. intros f i Hf Hc.
      rewrite <- LB, <- (A1 f i Hf Hc) by auto. apply Z.eqb_eq in EA. rewrite EA, <- Mx. destruct HW as (_ & [HL _] & _).
      rewrite Forall_forall in HL. destruct (HL f Hf) as (L1 & L2 & L3). unfold covers in Hc. now rewrite Z.mod_pow2_bits_low by lia.
    + exists (after_read (fields (rg s)) cur). split; [now apply h4|]. intros f i Hf Hc. rewrite (A1 f i Hf Hc). now apply LB.
  - intros l Hl. cbn [lock sigs]. destruct (after_read (fields (rg s)) cur =? cur); [now rewrite h4|now apply h4].
  - exact h5.
  - intros e. rewrite Ees. destruct (after_read _ _ =? _), (bcheck c && _); cbn; intuition congruence.
  - assert (HPos : Forall (fun x : field * bool => 0 < size (fst x) /\ 0 <= lsb (fst x)) (combine (fields (rg s)) (nc c))).
    { apply Forall_forall. intros [f b] Hf. apply in_combine_l in Hf. destruct HW as (_ & [HL _] & _). rewrite Forall_forall in HL. destruct (HL f Hf). cbn. lia. }
    pose proof (do_check_ok (combine (fields (rg s)) (nc c)) (reg_get (rg s)) v Backdoor HPos) as DC.
    destruct (ready_get (rg s) HR) as (_ & G1 & G2).
    transitivity (bcheck c = false \/ do_check (combine (fields (rg s)) (nc c)) (reg_get (rg s)) v Backdoor = true).
    { rewrite Ees. destruct (after_read _ _ =? _), (bcheck c), (do_check _ _ _ _); cbn; intuition discriminate. }
    rewrite DC. split; (intros [X|X]; [now left|right]); intros i Hi0 Hn0.
    + split; [intros f Hf Hc; rewrite <- (G1 f i Hf Hc); auto|intros Hnc; rewrite <- (G2 i Hi0 Hnc); auto].
    + destruct (X i Hi0 Hn0) as [X1 X2]. destruct (coverb (fields (rg s)) i) eqn:EC.
      * apply coverb_true in EC. destruct EC as (f & Hf & Hc). rewrite (X1 f Hf Hc). symmetry. now apply G1.
      * assert (HNc := proj1 (coverb_false _ _) EC). rewrite (X2 HNc). symmetry. now apply G2.
Qed.
Print Assumptions C168_read.
(** Signals that differ: an error and status NOT_OK; nothing changes. *)
Theorem C168_differ : forall H (rd : @D H -> via -> @D H * Z * bool) c (s : st H) m loc locs cur,
  well_formed (rg s) -> held s = false -> in_file c = false ->
  whole (sigs s) (fst (full_hdl_paths c)) (loc :: locs) -> holds (sigs s) (n_bits (rg s)) cur loc ->
  Forall (fun l => exists x, signal (sigs s) l = Some x) locs -> Exists (fun l => ~ holds (sigs s) (n_bits (rg s)) cur l) locs ->
  snd (full_hdl_paths c) = 0%nat ->
  read rd c s true m = (s, Done false cur, [EDiffer]).
Proof.
  intros H rd c s m loc locs cur HW Hh Hi HP H1 HF HE He. destruct (wf_ready _ HW) as [HR Hn].
  unfold read, locked_read, uses_back. rewrite Hh, paths_has, Hi by (intros E; rewrite E in HP; inversion HP). cbn [andb orb].
  unfold back_read_. rewrite Hi. cbn [lock rg sigs]. unfold rw_paths, path_errs. rewrite (read_differ1 _ _ cur _ _ _ _ HP Hn H1 HF HE), He.
  destruct s as [r t h hd]. cbn in *. now subst hd.
Qed.
Print Assumptions C168_differ.

(** a write-only field, a field cleared by reading, a read/write field *)
Definition ex_r2 : reg := Reg 8 8 true false [Field 2 0 WO false 1 1 false []; Field 3 2 RC false 5 5 false []; Field 3 5 RW false 2 2 false []].
Lemma ex_wf2 : well_formed ex_r2.
Proof.
  split; [cbn; lia|]. split.
  { split.
    - repeat (apply Forall_cons; [cbn; lia|]). apply Forall_nil.
    - unfold pairwise_disjoint. cbn. repeat (apply FOP_cons; [repeat (apply Forall_cons; [unfold disjoint, covers; cbn; lia|]); apply Forall_nil|]).
      apply FOP_nil. }
  split. { unfold in_order. cbn. repeat (apply SSorted_cons; [|repeat (apply Forall_cons; [cbn; lia|]); apply Forall_nil]). apply SSorted_nil. }
  repeat (apply Forall_cons; [cbn; unfold fits_in; repeat split; try lia; constructor|]). apply Forall_nil.
Qed.
Example C168_example :
  well_formed ex_r2 /\ whole (ex_tree 0x55 0x55 0x55 0x55) (fst (full_hdl_paths ex_cfg)) ex_locs /\
  (let '(s', o, es) := read no_rd ex_cfg (St ex_r2 (ex_tree 0x55 0x55 0x55 0x55) tt false) true (Map RtRW) in
   sigs s' = ex_tree 0x41 0x41 0x41 0x41 /\ o = Done true 0x54 /\ es = [ECheck] /\ reg_get_mirrored (rg s') = 0x54).
Proof. split; [exact ex_wf2|]. split; [apply ex_whole|]. vm_compute. auto. Qed.
(** So after a back door read the mirror need not be what the design holds: it has the value read,
    also for fields that reading clears or sets and for write-only fields; and a model that was
    right about a write-only field reports an error. *)
Theorem C168_mirror_limit :
  exists s s' : st unit, exists v,
    whole (sigs s) (fst (full_hdl_paths ex_cfg)) ex_locs /\
    Forall (holds (sigs s) (n_bits (rg s)) (reg_get_mirrored (rg s))) ex_locs /\
    read no_rd ex_cfg s true (Map RtRW) = (s', Done true v, [ECheck]) /\
    Forall (fun l => ~ holds (sigs s') (n_bits (rg s')) (reg_get_mirrored (rg s')) l) ex_locs.
Proof.
  exists (St ex_r2 (ex_tree 0x55 0x55 0x55 0x55) tt false). eexists _, _. split; [apply ex_whole|]. split.
  { repeat (apply Forall_cons; [eexists; split; reflexivity|]). apply Forall_nil. }
  split; [vm_compute; reflexivity|].
  repeat (apply Forall_cons; [intros (x & [= <-] & E); vm_compute in E; discriminate E|]). apply Forall_nil.
Qed.
Print Assumptions C168_mirror_limit.

(** C169: accesses that cannot work. After a call that raised an exception every further access to
    the register waits for ever. *)
Theorem C169_stuck : forall H (wr : @D H -> via -> Z -> @D H * bool) rd c (s : st H) x s1 es,
  do_call wr rd c s x = (s1, Raises, es) -> forall xs, calls wr rd c s1 xs = (s1, map (fun _ => Hangs) xs).
Proof.
  intros H wr rd c s x s1 es E. apply raise_held in E. induction xs as [|y xs IH]; auto.
  cbn [calls map]. now rewrite held_hangs, IH.
Qed.
Print Assumptions C169_stuck.
(** Back door accesses raise for registers in register files, for paths with slices, and for paths
    that do not lead to a signal. *)
Theorem C169_raises : forall H (wr : @D H -> via -> Z -> @D H * bool) rd c (s : st H) x,
  by_back x = true -> held s = false ->
  in_file c = true \/
  (exists con ps, fst (full_hdl_paths c) = con :: ps /\
     (Exists (fun sl => 0 <= soff sl) con \/
      exists sl con' loc kids, con = sl :: con' /\ leads (sigs s) (spath sl) loc /\ get (sigs s) loc = Some (Scope kids))) ->
  exists s1 es, do_call wr rd c s x = (s1, Raises, es) /\ sigs s1 = sigs s /\ rest s1 = rest s.
Proof.
  intros H wr rd c s x Hb Hh HC. destruct (in_file c) eqn:Ei.
  - destruct x as [b v m|b m|b k m]; cbn in Hb; subst b; cbn [do_call]; unfold write, read, mirror, locked_read, uses_back; rewrite Ei; cbn [andb orb];
      unfold back_write, back_read_; rewrite Hh, Ei; eexists _, _; (split; [reflexivity|auto]).
  - destruct HC as [HC|(con & ps & HP & HC)]; [discriminate|]. apply (read_raises wr rd c s x con ps); auto.
    destruct HC as [HC|(sl & con' & loc & kids & -> & HL & HG)]; [intros v; now apply sliced_raises|].
    intros v. cbn [read_concat]. rewrite (peek_leads _ _ _ HL). unfold signal. rewrite HG. now destruct (soff sl <? 0).
Qed.
Print Assumptions C169_raises.
(** A register without a path for the default abstraction is accessed through the front door. *)
Theorem C169_front : forall H (wr : @D H -> via -> Z -> @D H * bool) rd c (s : st H) x k,
  nearest (blocks c) k -> lookup k (rpaths c) = None -> in_file c = false ->
  do_call wr rd c s x = do_call wr rd c s (by_front x).
Proof.
  intros H wr rd c s x k HN HL Hi. apply nearest_kind in HN.
  assert (HU : forall b, uses_back c b = false) by (intros b; unfold uses_back, has_path; rewrite HN, HL, Hi; apply andb_false_r).
  destruct x; cbn [do_call by_front]; unfold write, read, mirror, locked_read; now rewrite !HU.
Qed.
Print Assumptions C169_front.
(** A register with a path in a block without one: nothing is written or read, yet the status is OK
    and the mirror changes. *)
Theorem C169_no_block_path : forall H (wr : @D H -> via -> Z -> @D H * bool) rd c (s : st H) k own v m,
  well_formed (rg s) -> held s = false -> in_file c = false ->
  nearest (blocks c) k -> Forall (clear_paths k) (blocks c) -> lookup k (rpaths c) = Some own ->
  (forall ps, picks k (blocks c) ps -> full "." ps = EmptyString) ->
  (exists s1 fv es, write wr c s true v m = (s1, Done true fv, es) /\ sigs s1 = sigs s /\ rest s1 = rest s /\ held s1 = false /\
     made_of (fields (rg s)) fv (fun f i => write_bit (write_effect (get_access f (dmap c))) (written f) (Z.testbit v i) (Z.testbit v i)) /\
     Forall2 (takes fv true) (fields (rg s)) (fields (rg s1))) /\
  (exists s1 es, read rd c s true m = (s1, Done true 0, es) /\ sigs s1 = sigs s /\ rest s1 = rest s /\ held s1 = false /\
     Forall2 (takes 0 false) (fields (rg s)) (fields (rg s1))).
Proof.
  intros H wr rd c s k own v m HW Hh Hi HN HC HL HE. destruct (wf_ready _ HW) as [HR Hn].
  assert (HP : fst (full_hdl_paths c) = []).
  { destruct (fst (full_hdl_paths c)) as [|con l] eqn:E; auto. exfalso.
    destruct (proj1 (C166_register c k HN HC con)) as (own' & con0 & ps & _ & _ & P & N & _); [rewrite E; now left|]. apply N. now apply HE. }
  apply nearest_kind in HN. assert (HU : uses_back c true = true) by (unfold uses_back, has_path; rewrite HN, HL; now rewrite orb_true_r).
  split.
  - destruct (nothing_written c s v HR (proj1 (proj2 HW)) Hh Hi HP) as (r' & fv & E & A & B). unfold write. rewrite HU. exists (St r' (sigs s) (rest s) false), fv, (path_errs c ++ path_errs c). auto 10.
  - destruct (nothing_read c (lock s true) HR Hi HP) as (r' & es & E & A). unfold read, locked_read. rewrite Hh, HU, E. eexists _, _. split; [reflexivity|].
    repeat (split; auto).
Qed.
Print Assumptions C169_no_block_path.

Definition with_paths (bp : list (string * list string)) (rp : list (string * list (list slice_))) (file : bool) : cfg :=
  Cfg [BNode "RTL" bp []] rp file (Map RtRW) [false; false] true true.
Definition flat (v : Z) : node := Scope [("dut", Scope [("ctrl", Sig v)])]%string.
Example C169_example :
  let s := St ex_r (flat 0x75) tt false in
  let w := [CWrite true 0x22 (Map RtRW); CRead false (Map RtRW); CMirror true true (Map RtRW)] in
  snd (calls no_wr no_rd (with_paths [("RTL", ["dut"])] [("RTL", [[Slice "ctrl" 0 8]])] false)%string s w) = [Raises; Hangs; Hangs] /\
  snd (calls no_wr no_rd (with_paths [("RTL", ["dut"])] [("RTL", [[sl "ctrl"]])] true)%string s w) = [Raises; Hangs; Hangs] /\
  snd (calls no_wr no_rd (with_paths [("RTL", ["dut"])] [("RTL", [[sl "ctlr"]])] false)%string s w) = [Raises; Hangs; Hangs] /\
  snd (calls no_wr no_rd (with_paths [("RTL", ["dut"])] [("GATE", [[sl "ctrl"]])] false)%string s w) = [Done true 0x22; Done true 0; Done true 0] /\
  snd (calls no_wr no_rd (with_paths [] [("RTL", [[sl "ctrl"]])] false)%string s w) = [Done true 0x02; Done true 0; Done true 0].
Proof. vm_compute. auto. Qed.
(** Names that are not there are passed over: a misspelt last name of a path that goes through a
    signal leads to that signal. *)
Example C169_unknown_example :
  leads (flat 0x75) "typo.dut.ctrl.q"%string ["dut"; "ctrl"]%string /\
  fst (fst (write no_wr (with_paths [("RTL", ["typo.dut"])] [("RTL", [[sl "ctrl.q"]])] false)%string (St ex_r (flat 0x75) tt false) true 0x22 (Map RtRW)))
  = St (Reg 8 6 true false [Field 3 0 RW false 2 2 true []; Field 3 4 W1C false 5 5 true []]) (flat 0x52) tt false.
Proof. split; [eexists; split; [apply split_is_names|reflexivity]|]. vm_compute. reflexivity. Qed.

(** C170: the register access test. Which registers are tested: *)
Theorem C170_tested : forall H (wr : @D H -> via -> Z -> @D H * bool) rd c (s : st H) ms,
  (tested (fields (rg s)) ms -> access_test wr rd c s ms = access_maps wr rd c s ms) /\
  (~ tested (fields (rg s)) ms -> access_test wr rd c s ms = (s, [], true)).
Proof.
  intros H wr rd c s ms. unfold access_test. pose proof (skipped_iff (fields (rg s)) ms) as X.
  destruct (skipped (fields (rg s)) ms); split; auto; intros T; [apply X in T; discriminate|exfalso; apply T; now apply X].
Qed.
Print Assumptions C170_tested.
(** No false alarms: a design that implements the policies of the fields passes, if all fields are
    readable. *)
Theorem C170_sound : forall H (wr : @D H -> via -> Z -> @D H * bool) rd dwr drd (done : H -> bool) loc c (s : st H) x ms,
  let bits := fun (d : Z * H) i => Z.testbit (fst d) i in let dn := fun d : Z * H => done (snd d) in
  seen_as loc wr rd dwr drd -> implements (fields (rg s)) dwr drd bits dn ->
  (forall a m v, tidy (fields (rg s)) (fst a) -> tidy (fields (rg s)) (fst (fst (dwr a m v)))) ->
  (forall a m, tidy (fields (rg s)) (fst a) -> tidy (fields (rg s)) (fst (fst (fst (drd a m))))) ->
  well_formed (rg s) -> held s = false -> in_file c = false -> snd (full_hdl_paths c) = 0%nat ->
  whole (sigs s) (fst (full_hdl_paths c)) [loc] -> signal (sigs s) loc = Some x -> tidy (fields (rg s)) x ->
  in_sync bits dn (fields (rg s)) (x, rest s) ->
  (forall f, In f (fields (rg s)) -> ~ write_once (access f)) \/ Forall (fun m => m = Map RtRW) ms ->
  (forall f m, In f (fields (rg s)) -> read_effect (access f) <> RUnreadable /\ (In m ms -> read_effect (get_access f m) <> RUnreadable)) ->
  exists s' x', access_test wr rd c s ms = (s', [], true) /\ held s' = false /\
    signal (sigs s') loc = Some x' /\ in_sync bits dn (fields (rg s')) (x', rest s').
Proof.
  intros H wr rd dwr drd done loc c s x ms bits dn SEEN HI HTw HTr HW Hh Hf Hp HP Hs HT HS HV HRd. unfold access_test.
  destruct (wf_ready _ HW) as [HR Hn].
  assert (I0 : Inv done loc c s x) by (constructor; auto; [split; auto|apply HW]).
  destruct (skipped _ _); [exists s, x; auto|]. clear Hh HP Hs HT HS HW HR Hn. revert s x HI HTw HTr HV HRd I0.
  induction ms as [|m ms IH]; intros s x HI HTw HTr HV HRd I0.
  - exists s, x. destruct I0 as [i1 i2 i3 (_ & _ & i4) _ _]. auto.
  - cbn [access_maps]. destruct (map_sound wr rd dwr drd done loc SEEN c m s x I0 HI HTw HTr) as (s1 & x1 & E & I1 & sh & _); auto.
    { destruct HV as [HV|HV]; [now left|]. right. now inversion HV. }
    { intros f Hin. destruct (HRd f m Hin) as [A B]. split; auto. apply B. now left. }
    rewrite E. destruct (IH s1 x1) as (s2 & x2 & E2 & R); auto.
    + eapply implements_shape; [symmetry; exact sh|auto].
    + intros a k v T. apply (tidy_shape (fields (rg s))); auto. apply HTw. eapply tidy_shape; [symmetry; exact sh|auto].
    + intros a k T. apply (tidy_shape (fields (rg s))); auto. apply HTr. eapply tidy_shape; [symmetry; exact sh|auto].
    + destruct HV as [HV|HV]; [left|right; now inversion HV]. intros f Hin. destruct (shapes_in _ _ f sh Hin) as (g & Hg & Eg). apply shape_eq in Eg.
      destruct Eg as (_ & _ & <-). now apply HV.
    + intros f k Hin. destruct (shapes_in _ _ f sh Hin) as (g & Hg & Eg). destruct (HRd g k Hg) as [A B].
      rewrite <- (shape_access g f k Eg). apply shape_eq in Eg. destruct Eg as (_ & _ & <-). split; auto. intros Hk. apply B. now right.
    + rewrite E2. exists s2, x2. auto.
Qed.
Print Assumptions C170_sound.
Definition one_cfg : cfg := Cfg [BNode "RTL" [("RTL", ["dut"])] []]%string [("RTL", [[sl "ctrl"]])]%string false (Map RtRW) [false; false; false; false] true true.
Definition one_loc : list string := ["dut"; "ctrl"]%string.
Lemma one_whole x : whole (flat x) (fst (full_hdl_paths one_cfg)) [one_loc].
Proof.
  change (fst (full_hdl_paths one_cfg)) with [[sl "dut.ctrl"]]%string. unfold whole.
  apply Forall2_cons; [|apply Forall2_nil]. eexists. split; [reflexivity|]. split; [cbn; lia|]. eexists. split; [apply split_is_names|reflexivity].
Qed.
Lemma ex_bits_nonneg g : 0 <= ex_bits g.
Proof.
  unfold ex_bits. generalize (seq 0 8). induction l as [|i l IH]; [cbn; lia|]. cbn [fold_right]. apply Z.lor_nonneg. split; auto.
  apply Z.shiftl_nonneg. destruct (g _); cbn; lia.
Qed.
Lemma ex_tidy g : (forall i, at_pos i = None -> g i = false) -> tidy ex_fields (ex_bits g).
Proof.
  intros Hg. split; [apply ex_bits_nonneg|]. intros i Hi Hn. destruct (Z.lt_ge_cases i 8); [|now apply ex_bits_high].
  rewrite ex_bits_ok by lia. apply Hg. destruct (at_pos i) as [f|] eqn:E; auto. exfalso. unfold at_pos in E. apply find_some in E.
  destruct E as [E1 E2]. apply (Hn f E1). unfold covers. lia.
Qed.
Example C170_example :
  seen_as one_loc (lift_wr one_loc ex_wr) (lift_rd one_loc ex_rd) ex_wr ex_rd /\
  implements (fields ex_reg) ex_wr ex_rd (fun d i => Z.testbit (fst d) i) snd /\
  (forall a m v, tidy ex_fields (fst a) -> tidy ex_fields (fst (fst (ex_wr a m v)))) /\
  (forall a m, tidy ex_fields (fst a) -> tidy ex_fields (fst (fst (fst (ex_rd a m))))) /\
  whole (flat 45) (fst (full_hdl_paths one_cfg)) [one_loc] /\ tidy ex_fields 45 /\ tested ex_fields [Map RtRW] /\
  (let '(s', es, b) := access_test (lift_wr one_loc ex_wr) (lift_rd one_loc ex_rd) one_cfg (St ex_reg (flat 45) false false) [Map RtRW; Map RtRW] in
   es = [] /\ b = true /\ sigs s' = flat 129).
Proof.
  split; [apply lift_seen|]. split; [exact ex_implements|].
  split. { intros a m v _. apply ex_tidy. intros i ->. reflexivity. }
  split. { intros a m _. apply ex_tidy. intros i ->. reflexivity. }
  split; [apply one_whole|]. split.
  { replace 45 with (ex_bits (fun i => match at_pos i with Some _ => Z.testbit 45 i | None => false end)) by (vm_compute; reflexivity).
    apply ex_tidy. intros i ->. reflexivity. }
  split. { apply skipped_iff. reflexivity. }
  vm_compute. auto.
Qed.
(** What is detected, for read/write registers and any design: the test passes if and only if the
    complement of the value, written through the front door, is in the signal, and the value,
    put into the signal, is read through the front door. *)
Theorem C170_exact : forall H (wr : @D H -> via -> Z -> @D H * bool) rd dwr drd loc c (s : st H) x x1 h1 ok1 x4 h4 v4 ok4,
  seen_as loc wr rd dwr drd -> plain_rw (rg s) -> fields (rg s) <> [] -> held s = false -> in_file c = false -> snd (full_hdl_paths c) = 0%nat ->
  whole (sigs s) (fst (full_hdl_paths c)) [loc] -> signal (sigs s) loc = Some x -> Forall (eq false) (nc c) -> dmap c = Map RtRW ->
  let v := reg_get (rg s) in let bv := Z.land (Z.lnot v) (Z.ones (n_bits (rg s))) in
  dwr (x, rest s) (Map RtRW) bv = ((x1, h1), ok1) -> drd (v, h1) (Map RtRW) = ((x4, h4), v4, ok4) ->
  exists s' es b, access_test wr rd c s [Map RtRW] = (s', es, b) /\
   (es = [] /\ b = true <-> ok1 = true /\ x1 mod 2 ^ n_bits (rg s) = keep (fields (rg s)) bv /\ ok4 = true /\ v4 = v).
Proof.
  intros H wr rd dwr drd loc c s x x1 h1 ok1 x4 h4 v4 ok4 SEEN HP HN Hh Hf Hp HW Hs Hnc Hd v bv E1 E4.
  assert (HR := plain_RW _ HP). assert (Hn := proj1 HP). rewrite (proj1 (C170_tested _ wr rd c s [Map RtRW])).
  2: { intros m [<-|[]]. destruct HR as [_ HF]. rewrite Forall_forall in HF. split.
       - destruct (fields (rg s)) as [|f fs] eqn:E; [congruence|]. exists f. split; [now left|]. cbn. destruct (HF f (or_introl eq_refl)) as (-> & _). discriminate.
       - intros f Hin. cbn. destruct (HF f Hin) as (-> & _). split; [|intros n]; discriminate. }
  cbn [access_maps]. destruct (map_exact wr rd dwr drd loc SEEN c s x x1 h1 ok1 x4 h4 v4 ok4) as (s' & es & b & E & X); auto; [lia|].
  rewrite E. destruct b; eexists _, _, _; (split; [reflexivity|]); rewrite ?app_nil_r; exact X.
Qed.
Print Assumptions C170_exact.
(** A bit stuck, on the way in, at the complement of what the register holds is found; one stuck at
    what it holds passes, as long as the back door can set it: writes of 1 to bit 1 get lost. *)
Definition rw_cfg : cfg := Cfg [BNode "RTL" [("RTL", ["dut"])] []]%string [("RTL", [[sl "ctrl"]])]%string false (Map RtRW) [false; false] true true.
Definition stuck_wr (k : Z) (d : Z * unit) (m : via) (v : Z) : Z * unit * bool := (Z.land (Z.land v 0x7DE) (Z.lnot k), tt, true).
Definition plain_rd (d : Z * unit) (m : via) : Z * unit * Z * bool := (d, fst d, true).
Definition stuck_test (k : Z) := access_test (lift_wr one_loc (stuck_wr k)) (lift_rd one_loc plain_rd) rw_cfg (St rw_reg (flat 0x24A) tt false) [Map RtRW].
Theorem C170_stuck_limit :
  seen_as one_loc (lift_wr one_loc (stuck_wr 2)) (lift_rd one_loc plain_rd) (stuck_wr 2) plain_rd /\ plain_rw rw_reg /\
  reg_get rw_reg = 0x24A /\ snd (fst (stuck_test 0)) = [] /\ snd (fst (stuck_test 4)) <> [] /\
  snd (fst (stuck_test 2)) = [] /\ snd (stuck_test 2) = true.
Proof.
  split; [apply lift_seen|]. split; [exact rw_reg_plain|]. vm_compute. repeat split; auto. discriminate.
Qed.
Print Assumptions C170_stuck_limit.
(** A write-only field that does not hold all ones fails the test, whatever the design does. *)
Theorem C170_write_only : forall H (wr : @D H -> via -> Z -> @D H * bool) rd c (s : st H) k own f i s' es b,
  well_formed (rg s) -> nearest (blocks c) k -> lookup k (rpaths c) = Some own ->
  In f (fields (rg s)) -> access f = WO -> covers f i -> Z.testbit (desired f) (i - lsb f) = false ->
  (forall g, In (g, true) (combine (fields (rg s)) (nc c)) -> ~ covers g i) ->
  tested (fields (rg s)) [Map RtRW] ->
  access_test wr rd c s [Map RtRW] = (s', es, b) -> es <> [] \/ b = false.
Proof.
  intros H wr rd c s k own f i s' es b HW HN HL Hf Ha Hc Hz Hnc HT. rewrite (proj1 (C170_tested _ wr rd c s [Map RtRW])) by auto.
  destruct (wf_ready _ HW) as [HR Hn]. cbn [access_maps]. destruct (access_map wr rd c s (Map RtRW)) as [[s1 e1] b1] eqn:E.
  apply nearest_kind in HN. apply (map_wo wr rd c s f i) in E; auto.
  - destruct b1; intros [= <- <- <-]; rewrite ?app_nil_r; auto.
  - unfold uses_back, has_path. rewrite HN, HL. apply orb_true_r.
  - destruct HW as (_ & [HLy _] & _). rewrite Forall_forall in HLy. destruct (HLy f Hf) as (_ & _ & X). unfold covers in Hc. lia.
Qed.
Print Assumptions C170_write_only.
Example C170_write_only_example :
  let r := Reg 4 4 true false [Field 2 0 WO false 1 1 false []; Field 2 2 RW false 0 0 false []] in
  let wr := fun (d : Z * unit) (m : via) v => ((v, tt), true) in
  let rd := fun (d : Z * unit) (m : via) => (d, Z.land (fst d) 12, true) in
  tested (fields r) [Map RtRW] /\
  snd (fst (access_test (lift_wr one_loc wr) (lift_rd one_loc rd) rw_cfg (St r (flat 1) tt false) [Map RtRW])) = [ECheck; ECheck; ECheck; ECheck].
Proof. split; [apply skipped_iff; reflexivity|vm_compute; reflexivity]. Qed.
