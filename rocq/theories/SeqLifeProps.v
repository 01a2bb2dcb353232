(** C113-C115: the life of a sequence. *)
From Coq Require Import ZArith List Bool Arith Lia.
From Verif Require Import Prelude DapModel SeqLifeModel SeqLifeSpec SeqLifeProofs.
Import ListNotations.

Section Props.
Context (ppri : nat -> Z) (psqr : nat -> bool).
Notation step := (step ppri psqr).
Notation start := (start ppri psqr).
Notation life := (life ppri psqr).
Notation one_at_a_time := (one_at_a_time ppri psqr).

Lemma life_app l1 l2 : life (l1 ++ l2) =
  (fst (run_machine step (fst (life l1)) l2), snd (life l1) ++ snd (run_machine step (fst (life l1)) l2)).
Proof. apply run_machine_app. Qed.
Lemma life_snoc ls l : fst (life (ls ++ [l])) = fst (step (fst (life ls)) l) /\
  snd (life (ls ++ [l])) = snd (life ls) ++ snd (step (fst (life ls)) l).
Proof.
  rewrite life_app. cbn [run_machine]. destruct (step (fst (life ls)) l) as [s1 o1]. cbn [fst snd]. now rewrite app_nil_r.
Qed.
Lemma oat_app l1 : forall s l2, one_at_a_time s (l1 ++ l2) -> one_at_a_time s l1 /\ one_at_a_time (fst (run_machine step s l1)) l2.
Proof.
  induction l1 as [|l l1 IH]; intros s l2 H; cbn [app SeqLifeSpec.one_at_a_time run_machine] in *; [auto|].
  destruct H as [H1 H2]. apply IH in H2. destruct (step s l) as [s1 o1]. cbn [fst] in *. destruct (run_machine step s1 l1) as [s2 o2]. cbn [fst] in *. tauto.
Qed.

(** Whatever is heard of a call is a beginning of its script. *)
Lemma known ls p : procs (fst (life ls)) p = PNone /\ heards p (snd (life ls)) = [] \/
  exists q c n, followed p q c n (fst (life ls)) (heards p (snd (life ls))).
Proof.
  induction ls as [|l ls IH] using rev_ind; [left; split; reflexivity|]. destruct (life_snoc ls l) as [-> ->].
  pose proof (life_good ppri psqr ls) as G. rewrite heards_app. destruct IH as [[HP HH]|(q & c & n & HK)].
  - rewrite HH. cbn [app]. set (s := fst (life ls)) in *.
    destruct l as [p' q b z c|p'|p'|ph| |v| |m|].
    + cbn [SeqLifeModel.step]. destruct (procs s p') eqn:EP; try (left; split; [exact HP|reflexivity]).
      destruct (start_spec ppri psqr s p' q b z c) as [(_ & _ & HS & HO & HQ)|(_ & _ & HO & HQ)]; rewrite HO; cbn [heards flat_map heard app].
      * destruct (Nat.eq_dec p p') as [<-|N]; [|left; rewrite HQ, upd_neq by exact N; auto].
        right. exists q, c, 0. unfold followed. rewrite HQ, upd_eq. split; [reflexivity|]. exists []. rewrite HS.
        split; [reflexivity|]. split; [destruct q, c; discriminate|]. auto.
      * left. rewrite HQ. auto.
    + left. destruct (procs s p') as [|rest q a| |] eqn:EP; try (cbn [SeqLifeModel.step]; rewrite EP; split; [exact HP|reflexivity]).
      destruct rest as [|l rest]; [cbn [SeqLifeModel.step]; rewrite EP; split; [exact HP|reflexivity]|].
      destruct (run_seg ppri psqr s p' l rest q a G EP) as (HQ & _ & HO & _). cbv zeta in HQ. assert (N : p <> p') by congruence.
      rewrite HQ, upd_neq by exact N. split; [exact HP|now apply HO].
    + left. cbn [SeqLifeModel.step]. destruct (procs s p') as [|rest q [h|]| |] eqn:EP; try (split; [exact HP|reflexivity]).
      destruct (setp_procs s p' PDead) as [E _]. cbn [fst snd]. rewrite E, upd_neq by congruence. split; [exact HP|reflexivity].
    + left. destruct s as [st0 apo0 sp0 par0 sqr0 pri0 kids0 sid0 regd0 gid0 fin0 procs0]. cbn in *. destruct (g_locked sp0); auto.
    + left. destruct s as [st0 apo0 sp0 par0 sqr0 pri0 kids0 sid0 regd0 gid0 fin0 procs0]. cbn in *. auto.
    + left. destruct s as [st0 apo0 sp0 par0 sqr0 pri0 kids0 sid0 regd0 gid0 fin0 procs0]. cbn in *. destruct (g_locked apo0); auto.
    + left. destruct s as [st0 apo0 sp0 par0 sqr0 pri0 kids0 sid0 regd0 gid0 fin0 procs0]. cbn in *. auto.
    + left. cbn. split; [exact HP|]. destruct (_ && _); [destruct (fin s)|]; reflexivity.
    + left. destruct s as [st0 apo0 sp0 par0 sqr0 pri0 kids0 sid0 regd0 gid0 fin0 procs0]. cbn in *. auto.
  - right. destruct (followed_step ppri psqr p q c n (fst (life ls)) _ l G HK) as [K _]. eauto.
Qed.

(** ** C113: order of the hooks *)
(** [start] by call [p] does not end in the fatal error. *)
Definition accepted (ls : list lab) (p : nat) (q : option nat) (b : bool) (z : Z) (c : bool) : Prop :=
  procs (fst (life ls)) p = PNone /\ snd (step (fst (life ls)) (LStart p q b z c)) = [].
Lemma accepted_iff ls p q b z c : procs (fst (life ls)) p = PNone ->
  snd (step (fst (life ls)) (LStart p q b z c)) = [OFatal p] \/ accepted ls p q b z c.
Proof.
  intros HP. unfold accepted. cbn [SeqLifeModel.step]. rewrite HP.
  destruct (start_spec ppri psqr (fst (life ls)) p q b z c) as [(_ & _ & _ & -> & _)|(_ & _ & -> & _)]; auto.
Qed.
Lemma accepted_follow l1 p q b z c l2 : accepted l1 p q b z c ->
  followed p q c (length (filter (is_run p) l2)) (fst (life (l1 ++ LStart p q b z c :: l2))) (heards p (snd (life (l1 ++ LStart p q b z c :: l2)))) /\
  (procs (fst (life (l1 ++ LStart p q b z c :: l2))) p = PDead -> existsb (is_throw p) l2 = true).
Proof.
  intros [HP HA]. replace (l1 ++ LStart p q b z c :: l2) with ((l1 ++ [LStart p q b z c]) ++ l2) by now rewrite <- app_assoc.
  pose proof (life_good ppri psqr (l1 ++ [LStart p q b z c])) as G. rewrite life_app. cbn [fst snd].
  destruct (life_snoc l1 (LStart p q b z c)) as [E1 E2]. rewrite HA, app_nil_r in E2. rewrite E2. rewrite heards_app.
  destruct (known l1 p) as [[_ HH]|(q' & c' & n & X)]; [|unfold followed in X; rewrite HP in X; destruct X].
  assert (K : followed p q c 0 (fst (life (l1 ++ [LStart p q b z c]))) (heards p (snd (life l1)))).
  { rewrite E1, HH. cbn [SeqLifeModel.step] in *. rewrite HP in *.
    destruct (start_spec ppri psqr (fst (life l1)) p q b z c) as [(_ & _ & HS & _ & HQ)|(_ & _ & HO & _)]; [|congruence].
    unfold followed. rewrite HQ, upd_eq. split; [reflexivity|]. exists []. rewrite HS. split; [reflexivity|]. split; [destruct q, c; discriminate|]. auto. }
  destruct (followed_run ppri psqr p q c l2 0 _ _ G K) as [F D]. split; [exact F|]. intros X. destruct (D X) as [Y|Y]; [|exact Y].
  unfold followed in K. rewrite Y in K. destruct K as [k K]. exfalso. revert Y. rewrite E1. cbn [SeqLifeModel.step]. rewrite HP.
  destruct (start_spec ppri psqr (fst (life l1)) p q b z c) as [(_ & _ & _ & _ & ->)|(_ & _ & _ & ->)]; [rewrite upd_eq; discriminate|congruence].
Qed.
Lemma trace_prefix q d r x : exists n, fst (trace_of q x (concat d)) = firstn n (fst (trace_of q x (concat (d ++ r)))).
Proof.
  rewrite concat_app, trace_app. cbn [fst]. exists (length (fst (trace_of q x (concat d)))). rewrite firstn_app, firstn_all, Nat.sub_diag. cbn. now rewrite app_nil_r.
Qed.

(** Whatever the hooks do, however the scheduler interleaves them with other calls, what is
    seen of an accepted call of start() is a beginning of the documented order, each hook
    seeing its own state; nothing of it is seen before the call. *)
Theorem C113_order l1 p q b z c l2 : accepted l1 p q b z c ->
  exists n, heards p (snd (life (l1 ++ LStart p q b z c :: l2))) = firstn n (script q c).
Proof.
  intros H. destruct (accepted_follow l1 p q b z c l2 H) as [F _]. unfold followed in F.
  destruct (procs _ p); [destruct F| |exact F|exists (length (script q c)); now rewrite firstn_all].
  destruct F as (_ & d & HS & _ & _ & -> & _). destruct (trace_prefix q d rest PRE_START) as [n ->].
  exists n. now rewrite <- HS, trace_script.
Qed.
(** A call whose hooks all return runs to its end if it is resumed often enough, and then
    all of the order has been seen. *)
Theorem C113_completes l1 p q b z c l2 : accepted l1 p q b z c ->
  existsb (is_throw p) l2 = false -> 14 <= length (filter (is_run p) l2) ->
  heards p (snd (life (l1 ++ LStart p q b z c :: l2))) = script q c.
Proof.
  intros H HT HN. destruct (accepted_follow l1 p q b z c l2 H) as [F D]. unfold followed in F.
  destruct (procs _ p) as [|rest q' a| |]; [destruct F| |rewrite D in HT by reflexivity; discriminate|exact F].
  destruct F as (_ & d & HS & HR & HL & _). exfalso.
  assert (L : length (segs (given q) c) <= 14) by (destruct q, c; cbn; lia). rewrite HS, app_length in L.
  destruct rest; [congruence|]. cbn [length] in L. lia.
Qed.
(** The hooks of two calls are never mixed: when a hook of one is called, the other has been
    through its last hook or has shown nothing yet. *)
Lemma segs_cut b c d rest : segs b c = d ++ rest -> d = firstn (length d) (segs b c) /\ rest = skipn (length d) (segs b c).
Proof. intros ->. rewrite firstn_app, skipn_app, firstn_all, skipn_all, Nat.sub_diag. cbn. now rewrite app_nil_r. Qed.
Lemma segs_after (P : list (list action) -> bool) : (forall b c n, n < 14 -> P (skipn n (segs b c)) = true) -> P [] = true ->
  forall b c d rest, segs b c = d ++ rest -> P rest = true.
Proof.
  intros H H0 b c d rest HS. destruct (segs_cut b c d rest HS) as [_ ->].
  assert (L : length d < 14 \/ 14 <= length d) by lia. destruct L as [L|L]; [now apply H|].
  rewrite skipn_all2; [exact H0|]. destruct b, c; cbn; lia.
Qed.
Lemma past_post_start q c d rest : segs (given q) c = d ++ rest -> busy rest = false ->
  In (EHook HPostStart POST_START) (fst (trace_of q PRE_START (concat d))).
Proof.
  intros HS HB.
  pose proof (segs_cut (given q) c d rest HS) as E.
  destruct E as [E1 E2]. rewrite E2 in HB. rewrite E1. clear - HB. revert HB. generalize (length d) as n. intros n.
  assert (L : n < 14 \/ 14 <= n) by lia. destruct L as [L|L].
  - do 14 (destruct n as [|n]; [destruct q, c; vm_compute; intros HB; try discriminate HB; auto 12|]). lia.
  - intros _. rewrite firstn_all2 by (destruct q, c; cbn; lia). rewrite trace_script. destruct q, c; vm_compute; auto 12.
Qed.
Lemma in_heards p tr h x : In (EHook h x) (heards p tr) <-> In (OHook p h x) tr.
Proof.
  unfold heards. rewrite in_flat_map. split.
  - intros (o & H1 & H2). destruct o as [p'|p' h' x'|p' q'|p' q'|p' q'|p' q'|p' q'|p'|p'|v|v| | | |]; cbn in H2; try (destruct (Nat.eqb_spec p p') as [->|]); cbn in H2;
      repeat (destruct H2 as [H2|H2]); try discriminate H2; try (destruct H2; fail); injection H2 as -> ->; assumption.
  - intros H. exists (OHook p h x). split; [exact H|]. cbn. rewrite Nat.eqb_refl. now left.
Qed.
Lemma hook_busy s l p h x : good s -> In (OHook p h x) (snd (step s l)) -> l = LRun p /\ busy_p s p.
Proof.
  intros G H. destruct l as [p' q b z c|p'|p'|ph| |v| |m|].
  - cbn [SeqLifeModel.step] in H. destruct (procs s p'); try (destruct H; fail).
    destruct (start_spec ppri psqr s p' q b z c) as [(_ & _ & _ & E & _)|(_ & _ & E & _)]; rewrite E in H; [destruct H|destruct H as [H|[]]; discriminate].
  - destruct (procs s p') as [|rest q a| |] eqn:EP; try (cbn [SeqLifeModel.step] in H; rewrite EP in H; destruct H; fail).
    destruct rest as [|l rest]; [cbn [SeqLifeModel.step] in H; rewrite EP in H; destruct H|].
    destruct (run_seg ppri psqr s p' l rest q a G EP) as (_ & HT & HO & _ & HC & _). cbv zeta in *.
    apply in_heards in H. destruct (Nat.eq_dec p p') as [<-|N]; [|rewrite HO in H by exact N; destruct H]. split; [reflexivity|].
    unfold busy_p. rewrite EP. destruct (busy (l :: rest)) eqn:B; [reflexivity|exfalso].
    apply (f_equal fst) in HT. cbn [fst] in HT. rewrite HT in H.
    destruct (g_suffix s G p _ q a EP) as [(c & d & HS) _]. pose proof (segs_ok (given q) c) as HA. rewrite HS in HA. apply all_ok_mid in HA.
    unfold seg_ok in HA. rewrite B in HA. cbn [orb] in HA. apply andb_true_iff in HA. destruct HA as [HA _]. apply andb_true_iff in HA. destruct HA as [HA _].
    apply andb_true_iff in HA. destruct HA as [_ HA]. clear - H HA. revert H. generalize (st s). induction l as [|a l IH]; intros y H; cbn [trace_of forallb] in *; [destruct H|].
    apply andb_true_iff in HA. destruct HA as [HA1 HA2]. specialize (IH HA2).
    specialize (IH (match a with ASet z => z | _ => y end)). destruct (trace_of q (match a with ASet z => z | _ => y end) l). cbn [fst] in *.
    apply in_app_iff in H. destruct H as [H|H]; [|now apply IH].
    destruct a; try discriminate HA1; try destruct q; cbn in H; repeat (destruct H as [H|H]); try discriminate H; destruct H.
  - cbn [SeqLifeModel.step] in H. destruct (procs s p') as [|? ? [h'|]| |]; try (destruct H; fail). destruct H as [H|[]]. discriminate.
  - destruct s as [st0 apo0 sp0 par0 sqr0 pri0 kids0 sid0 regd0 gid0 fin0 procs0]. cbn in H. destruct (g_locked sp0); [destruct H as [H|[]]; discriminate|destruct H].
  - destruct s. cbn in H. destruct H as [H|[]]. discriminate.
  - destruct s as [st0 apo0 sp0 par0 sqr0 pri0 kids0 sid0 regd0 gid0 fin0 procs0]. cbn in H. destruct (g_locked apo0); [destruct H as [H|[]]; discriminate|destruct H].
  - destruct s. cbn in H. destruct H as [H|[]]. discriminate.
  - cbn in H. destruct (_ && _); [destruct (fin s)|]; repeat (destruct H as [H|H]); try discriminate H; destruct H.
  - destruct s. cbn in H. destruct H as [H|[]]. discriminate.
Qed.
Theorem C113_exclusive ls l p h x p' h' x' :
  In (OHook p h x) (snd (life ls)) -> In (OHook p' h' x') (snd (step (fst (life ls)) l)) -> p' <> p ->
  In (OHook p HPostStart POST_START) (snd (life ls)).
Proof.
  intros H H' N. pose proof (life_good ppri psqr ls) as G. destruct (hook_busy _ l p' h' x' G H') as [_ B'].
  assert (NB : ~ busy_p (fst (life ls)) p) by (intros B; apply N; now apply (g_one _ G)).
  apply in_heards. apply in_heards in H. destruct (known ls p) as [[_ E]|(q & c & n & K)]; [rewrite E in H; destruct H|].
  unfold followed in K. unfold busy_p in NB. destruct (procs (fst (life ls)) p) as [|rest q' a| |].
  - destruct K.
  - destruct K as (_ & d & HS & _ & _ & -> & _). apply past_post_start with (c := c) (rest := rest); [exact HS|]. now destruct (busy rest).
  - destruct (NB I).
  - rewrite K. destruct q, c; cbn; tauto.
Qed.
(** Starting again: accepted if all earlier calls have returned, refused while an earlier
    one has not been through its last hook. *)
Theorem C113_restart ls p q b z c : procs (fst (life ls)) p = PNone -> (-1 <= z)%Z -> (forall p', gone (fst (life ls)) p') ->
  accepted ls p q b z c.
Proof.
  intros HP HZ HG. destruct (life_good ppri psqr ls) as [_ _ G3]. split; [exact HP|]. cbn [SeqLifeModel.step]. rewrite HP.
  destruct (start_spec ppri psqr (fst (life ls)) p q b z c) as [(_ & _ & _ & E & _)|([X|X] & _)]; [exact E| |lia].
  rewrite (proj2 G3) in X; [discriminate|]. intros p' B. unfold busy_p in B. destruct (HG p') as [Y|Y]; now rewrite Y in B.
Qed.
Lemma refused_idle ls p q b z c : procs (fst (life ls)) p = PNone -> idle (st (fst (life ls))) = false ->
  snd (step (fst (life ls)) (LStart p q b z c)) = [OFatal p] /\ forall p', procs (fst (step (fst (life ls)) (LStart p q b z c))) p' = procs (fst (life ls)) p'.
Proof.
  intros HP HI. cbn [SeqLifeModel.step]. rewrite HP.
  destruct (start_spec ppri psqr (fst (life ls)) p q b z c) as [(X & _)|(_ & _ & E1 & E2)]; [congruence|]. rewrite E1, E2. auto.
Qed.
Theorem C113_refused l1 p' q' b' z' c' l2 p q b z c : accepted l1 p' q' b' z' c' ->
  let ls := l1 ++ LStart p' q' b' z' c' :: l2 in
  ~ In (OHook p' HPostStart POST_START) (snd (life ls)) -> procs (fst (life ls)) p = PNone ->
  snd (step (fst (life ls)) (LStart p q b z c)) = [OFatal p] /\
  (forall p'', procs (fst (step (fst (life ls)) (LStart p q b z c))) p'' = procs (fst (life ls)) p'').
Proof.
  intros HA ls HN HP. apply refused_idle; [exact HP|]. pose proof (life_good ppri psqr ls) as G.
  destruct (accepted_follow l1 p' q' b' z' c' l2 HA) as [F _]. fold ls in F.
  assert (B : busy_p (fst (life ls)) p').
  { unfold busy_p, followed in *. destruct (procs (fst (life ls)) p') as [|rest q'' a| |]; [exact F| |exact I|].
    - destruct F as (_ & d & HS & _ & _ & HH & _). destruct (busy rest) eqn:BR; [reflexivity|]. exfalso. apply HN. apply in_heards. rewrite HH.
      now apply past_post_start with (c := c') (rest := rest).
    - apply HN. apply in_heards. rewrite F. destruct q', c'; cbn; tauto. }
  destruct (idle (st (fst (life ls)))) eqn:X; [|reflexivity]. destruct (proj1 (g_idle _ G) X p' B).
Qed.
(** After an exception in a hook the sequence can never be started again. *)
Lemma dead_stays l2 : forall s p, procs s p = PDead -> procs (fst (run_machine step s l2)) p = PDead.
Proof.
  induction l2 as [|l l2 IH]; intros s p H; cbn [run_machine]; [exact H|].
  assert (E : procs (fst (step s l)) p = PDead).
  { destruct l as [p' q b z c|p'|p'|ph| |v| |m|]; cbn [SeqLifeModel.step].
    - destruct (procs s p') eqn:EP; try exact H. destruct (start_spec ppri psqr s p' q b z c) as [(_ & _ & _ & _ & ->)|(_ & _ & _ & ->)]; [|exact H].
      now rewrite upd_neq by congruence.
    - destruct (procs s p') as [|[|l rest] q a| |] eqn:EP; try exact H. destruct (acts_frame p' q l s) as (F & _). destruct (acts p' q s l) as [s1 o]. cbn [fst] in *.
      destruct (setp_procs s1 p' (match rest with [] => PDone | _ => PLive rest q (awaits l) end)) as [-> _]. rewrite upd_neq by congruence. now rewrite F.
    - destruct (procs s p') as [|rest q [h|]| |] eqn:EP; try exact H. cbn [fst]. destruct (setp_procs s p' PDead) as [-> _]. now rewrite upd_neq by congruence.
    - now destruct s.
    - now destruct s.
    - now destruct s.
    - now destruct s.
    - exact H.
    - now destruct s. }
  destruct (step s l) as [s1 o1]. cbn [fst] in *. specialize (IH s1 p E). destruct (run_machine step s1 l2). exact IH.
Qed.
Lemma throw_dead s p : In (OThrown p) (snd (step s (LThrow p))) -> procs (fst (step s (LThrow p))) p = PDead /\ exists r q h, procs s p = PLive r q (Some h).
Proof.
  cbn [SeqLifeModel.step]. destruct (procs s p) as [|rest q [h|]| |] eqn:EP; try (intros []; fail). intros _. cbn [fst].
  destruct (setp_procs s p PDead) as [-> _]. rewrite upd_eq. eauto.
Qed.
Theorem C113_exception l1 p' l2 p q b z c : In (OThrown p') (snd (step (fst (life l1)) (LThrow p'))) ->
  let ls := l1 ++ LThrow p' :: l2 in
  procs (fst (life ls)) p = PNone -> snd (step (fst (life ls)) (LStart p q b z c)) = [OFatal p].
Proof.
  intros HT ls HP. apply throw_dead in HT. destruct HT as [HT _].
  assert (D : procs (fst (life ls)) p' = PDead).
  { unfold ls. replace (l1 ++ LThrow p' :: l2) with ((l1 ++ [LThrow p']) ++ l2) by now rewrite <- app_assoc. rewrite life_app. cbn [fst].
    apply dead_stays. destruct (life_snoc l1 (LThrow p')) as [-> _]. exact HT. }
  apply refused_idle; [exact HP|]. pose proof (life_good ppri psqr ls) as G. destruct (idle (st (fst (life ls)))) eqn:X; [|reflexivity].
  destruct (proj1 (g_idle _ G) X p'). unfold busy_p. now rewrite D.
Qed.
(** wait_for_sequence_state() never waits: it returns at once if the sequence is finished
    and the mask has that state, and raises an exception otherwise. *)
Lemma fin_inv ls : st (fst (life ls)) = FINISHED -> fin (fst (life ls)) = true.
Proof.
  induction ls as [|l ls IH] using rev_ind; [discriminate|]. destruct (life_snoc ls l) as [-> _].
  pose proof (life_good ppri psqr ls) as G. set (s := fst (life ls)) in *.
  destruct l as [p q b z c|p|p|ph| |v| |m|].
  - cbn [SeqLifeModel.step]. destruct (procs s p) eqn:EP; try exact IH. 
    assert (F : fin (fst (start s p q b z c)) = fin s).
    { destruct s as [st0 apo0 sp0 par0 sqr0 pri0 kids0 sid0 regd0 gid0 fin0 procs0]. unfold SeqLifeModel.start.
      destruct (negb _); [reflexivity|]. destruct (z <? -1)%Z; [reflexivity|]. destruct (if b then _ else _); reflexivity. }
    rewrite F. destruct (start_spec ppri psqr s p q b z c) as [(_ & _ & -> & _)|(_ & -> & _)]; [discriminate|exact IH].
  - destruct (procs s p) as [|[|l rest] q a| |] eqn:EP; try (cbn [SeqLifeModel.step]; rewrite EP; exact IH).
    destruct (run_seg ppri psqr s p l rest q a G EP) as (_ & _ & _ & _ & _ & F1 & F2 & H0 & H1). cbv zeta in *. intros E.
    destruct (busy (l :: rest)) eqn:B.
    + destruct (H1 eq_refl) as [_ [[BR _]|[_ X]]]; [now apply F1|]. rewrite E in X. discriminate.
    + apply F2, IH. rewrite <- (proj1 (H0 eq_refl)). exact E.
  - cbn [SeqLifeModel.step]. destruct (procs s p) as [|rest q [h|]| |]; try exact IH. now destruct s.
  - now destruct s.
  - now destruct s.
  - now destruct s.
  - now destruct s.
  - exact IH.
  - now destruct s.
Qed.
Theorem C113_wait ls mask :
  snd (step (fst (life ls)) (LWait mask)) =
    match st (fst (life ls)) with FINISHED => if mask FINISHED then [OWaitReturns] else [OWaitRaises] | _ => [OWaitRaises] end.
Proof.
  cbn [SeqLifeModel.step snd]. pose proof (fin_inv ls) as F. destruct (st (fst (life ls))); rewrite ?andb_false_r; try reflexivity.
  rewrite (F eq_refl). cbn [sstate_eqb]. rewrite andb_true_r. reflexivity.
Qed.
(** The priority given to an accepted start() is the sequence's until the next start(). *)
Definition is_start (l : lab) : bool := match l with LStart _ _ _ _ _ => true | _ => false end.
Theorem C113_priority l1 p q b z c l2 : accepted l1 p q b z c -> existsb is_start l2 = false ->
  pri (fst (life (l1 ++ LStart p q b z c :: l2))) =
    if (0 <=? z)%Z then z else match q with Some x => ppri x | None => 100%Z end.
Proof.
  intros [HP HA] HN. replace (l1 ++ LStart p q b z c :: l2) with ((l1 ++ [LStart p q b z c]) ++ l2) by now rewrite <- app_assoc.
  rewrite life_app. cbn [fst]. destruct (life_snoc l1 (LStart p q b z c)) as [-> _].
  assert (K : forall l2 s, existsb is_start l2 = false -> pri (fst (run_machine step s l2)) = pri s).
  { clear. induction l2 as [|l l2 IH]; intros s H; cbn [run_machine existsb] in *; [reflexivity|]. apply orb_false_iff in H. destruct H as [H1 H2].
    assert (E : pri (fst (step s l)) = pri s).
    { destruct l as [p' q b z c|p'|p'|ph| |v| |m|]; cbn [SeqLifeModel.step]; try discriminate; try (now destruct s).
      - destruct (procs s p') as [|[|l rest] q a| |]; try reflexivity. destruct (acts_frame p' q l s) as (_ & _ & _ & _ & F & _). destruct (acts p' q s l) as [s1 o]. cbn [fst] in *.
        rewrite <- F. now destruct s1.
      - destruct (procs s p') as [|rest q [h|]| |]; try reflexivity. now destruct s. }
    rewrite <- E. destruct (step s l) as [s1 o1]. cbn [fst]. specialize (IH s1 H2). destruct (run_machine step s1 l2). exact IH. }
  rewrite K by exact HN. cbn [SeqLifeModel.step] in *. rewrite HP in *.
  destruct (fst (life l1)) as [st0 apo0 sp0 par0 sqr0 pri0 kids0 sid0 regd0 gid0 fin0 procs0]. unfold SeqLifeModel.start in *.
  destruct (negb _); [discriminate|]. destruct (z <? -1)%Z; [discriminate|].
  assert (Z.leb 0 z = negb (Z.ltb z 0)) as -> by (destruct (Z.ltb_spec z 0), (Z.leb_spec 0 z); (reflexivity || lia)).
  destruct (if b then _ else _); cbn [fst pri]; destruct (z <? 0)%Z; destruct q; reflexivity.
Qed.

(** ** C114: automatic phase objections *)
Lemma pre_start_raised q c d rest : segs (given q) c = d ++ rest -> In (EHook HPreStart PRE_START) (fst (trace_of q PRE_START (concat d))) ->
  has is_raise rest = false.
Proof.
  intros HS HB. destruct d as [|x d]; [destruct HB|]. destruct q, c; cbn in HS; injection HS as <- HS;
  apply (f_equal (has is_raise)) in HS; cbn in HS; unfold has in HS; rewrite concat_app, existsb_app in HS;
  symmetry in HS; apply orb_false_iff in HS; apply HS.
Qed.
Lemma busy_drop b c d rest : segs b c = d ++ rest -> busy rest = true -> has is_drop rest = true /\ has is_exit rest = true.
Proof.
  intros HS HB. apply andb_true_iff.
  enough (X : (negb (busy rest) || (has is_drop rest && has is_exit rest)) = true) by (rewrite HB in X; exact X).
  revert HS. apply (segs_after (fun r => negb (busy r) || (has is_drop r && has is_exit r))); [|reflexivity].
  intros b' c' n L. do 14 (destruct n as [|n]; [destruct b', c'; reflexivity|]). lia.
Qed.
Lemma calm_busy ls : one_at_a_time sq0 ls -> idle (st (fst (life ls))) = false ->
  exists p rest, in_call p rest (fst (life ls)) (snd (life ls)) /\ busy rest = true.
Proof.
  intros H HI. pose proof (life_good ppri psqr ls) as G. destruct (calm_life ppri psqr ls H) as [[HG _]|(p & rest & C)].
  - exfalso. rewrite (proj2 (g_idle _ G)) in HI; [discriminate|]. intros p B. unfold busy_p in B. destruct (HG p) as [X|X]; now rewrite X in B.
  - exists p, rest. split; [exact C|]. destruct (busy rest) eqn:B; [reflexivity|]. exfalso.
    rewrite (proj2 (g_idle _ G)) in HI; [discriminate|]. intros p' B'. destruct C as (C1 & _ & _ & C3 & _). unfold busy_p in B'.
    destruct (Nat.eq_dec p' p) as [->|N]; [|destruct (C1 p' N) as [X|X]; now rewrite X in B'].
    destruct C3 as [(q & a & E & _)|(E & _ & X)]; [|congruence]. rewrite E in B'. congruence.
Qed.
(** While no start() of the sequence is under way it has no objection outstanding. *)
Theorem C114_balanced ls : one_at_a_time sq0 ls -> (forall p, gone (fst (life ls)) p) -> forall ph, outstanding ph (snd (life ls)) = 0%Z.
Proof.
  intros H HG. destruct (calm_life ppri psqr ls H) as [[_ (R & _)]|(p & rest & _ & _ & _ & C3 & _)]; [exact R|].
  destruct C3 as [(q & a & E & _)|(E & _)]; destruct (HG p) as [X|X]; congruence.
Qed.
(** From the call of pre_start() to the end of post_start() - or for ever, if a hook raises an
    exception - it has one objection outstanding to the starting phase if it has one and automatic
    objection is on, and none otherwise; neither setting can be changed. *)
Theorem C114_window ls p : one_at_a_time sq0 ls -> (running (fst (life ls)) p \/ procs (fst (life ls)) p = PDead) ->
  In (OHook p HPreStart PRE_START) (snd (life ls)) -> st (fst (life ls)) <> CREATED -> st (fst (life ls)) <> FINISHED ->
  (forall ph, outstanding ph (snd (life ls)) = if holds_for (fst (life ls)) ph then 1%Z else 0%Z) /\
  (forall v, g_val (apo (fst (step (fst (life ls)) (LSetApo v)))) = g_val (apo (fst (life ls))) /\
     snd (step (fst (life ls)) (LSetApo v)) = [OLocked]) /\
  (forall v, g_val (apo (fst (life ls))) = Some true ->
     g_val (sp (fst (step (fst (life ls)) (LSetPhase v)))) = g_val (sp (fst (life ls))) /\ snd (step (fst (life ls)) (LSetPhase v)) = [OLocked]).
Proof.
  intros H HR HH N1 N2. assert (HI : idle (st (fst (life ls))) = false) by (destruct (st (fst (life ls))); try reflexivity; congruence).
  destruct (calm_busy ls H HI) as (p' & rest & (C1 & C2 & (b & c & d & HS) & C3 & C4 & _) & HB).
  assert (p' = p) as ->.
  { destruct (Nat.eq_dec p' p) as [|N]; [assumption|]. exfalso. destruct (C1 p ltac:(congruence)) as [X|X], HR as [(r & q & a & Y)|Y]; congruence. }
  assert (NR : has is_raise rest = false).
  { destruct C3 as [(q & a & E & _)|(E & X & _)]; [|exact X]. apply in_heards in HH. destruct (known ls p) as [[X _]|(q' & c' & n & K)]; [congruence|].
    unfold followed in K. rewrite E in K. destruct K as (-> & d' & HS' & _ & _ & K & _). rewrite K in HH. eapply pre_start_raised; eassumption. }
  destruct (busy_drop b c d rest HS HB) as [HD _]. unfold ofacts in C4. rewrite NR, HD in C4. destruct C4 as (L1 & L2 & L3).
  split; [exact L3|]. destruct (fst (life ls)) as [st0 apo0 sp0 par0 sqr0 pri0 kids0 sid0 regd0 gid0 fin0 procs0]. cbn in *. split.
  - intros v. now rewrite L1.
  - intros v E. rewrite E in L2. now rewrite (L2 eq_refl).
Qed.
(** Before pre_start() is called and after post_start() has returned it has none. *)
Theorem C114_outside ls : one_at_a_time sq0 ls -> (forall p, running (fst (life ls)) p -> ~ In (OHook p HPreStart PRE_START) (snd (life ls))) ->
  (forall p, procs (fst (life ls)) p <> PDead) -> forall ph, outstanding ph (snd (life ls)) = 0%Z.
Proof.
  intros H HR HD ph. destruct (calm_life ppri psqr ls H) as [[_ (R & _)]|(p & rest & _ & HN & _ & C3 & C4 & _)]; [apply R|].
  destruct C3 as [(q & a & E & _)|(E & _)]; [|destruct (HD p E)].
  assert (HQ : ~ In (EHook HPreStart PRE_START) (heards p (snd (life ls)))).
  { rewrite in_heards. apply HR. red. eauto. }
  destruct (known ls p) as [[X _]|(q' & c' & n & K)]; [congruence|]. unfold followed in K. rewrite E in K. destruct K as (-> & d & HS & _ & _ & K & _).
  rewrite K in HQ. destruct d as [|x d]; [|exfalso; apply HQ; destruct q', c'; cbn in HS; injection HS as <- HS; cbn [concat]; rewrite trace_app; cbn [fst]; apply in_or_app; left; now left].
  cbn [app] in HS. unfold ofacts in C4. rewrite <- HS in C4. destruct q', c'; exact (C4 ph).
Qed.
Theorem C114_finished ls : one_at_a_time sq0 ls -> st (fst (life ls)) = FINISHED -> forall ph, outstanding ph (snd (life ls)) = 0%Z.
Proof.
  intros H HF ph. pose proof (life_good ppri psqr ls) as G.
  destruct (calm_life ppri psqr ls H) as [[_ (R & _)]|(p & rest & _ & HN & (b & c & d & HS) & C3 & C4 & _)]; [apply R|].
  assert (HB : busy rest = false).
  { destruct (busy rest) eqn:B; [|reflexivity]. exfalso. apply (proj1 (g_idle _ G) ltac:(now rewrite HF) p). unfold busy_p.
    destruct C3 as [(q & a & -> & _)|(-> & _)]; [exact B|exact I]. }
  unfold ofacts in C4.
  assert (X : has is_raise rest = false /\ has is_drop rest = false).
  { enough (X : (busy rest || negb (has is_raise rest || has is_drop rest)) = true).
    { rewrite HB in X. cbn [orb] in X. apply negb_true_iff, orb_false_iff in X. exact X. }
    revert HS. apply (segs_after (fun r => busy r || negb (has is_raise r || has is_drop r))); [|reflexivity].
    intros b' c' n L. do 14 (destruct n as [|n]; [destruct b', c'; reflexivity|]). lia. }
  destruct X as [X Y]. rewrite X, Y in C4. apply C4.
Qed.

(** ** C115: the sequencer's and the parent's tables *)
(** While a start() is under way the sequencer knows the sequence under its current id and
    no other; afterwards it does not know it. *)
Theorem C115_registered ls : one_at_a_time sq0 ls ->
  (st (fst (life ls)) <> CREATED -> st (fst (life ls)) <> FINISHED ->
     forall i, regd (fst (life ls)) i = true <-> sqr (fst (life ls)) = true /\ sid (fst (life ls)) = Some i) /\
  ((forall p, gone (fst (life ls)) p) -> forall i, regd (fst (life ls)) i = false).
Proof.
  intros H. split.
  - intros N1 N2 i. assert (HI : idle (st (fst (life ls))) = false) by (destruct (st (fst (life ls))); try reflexivity; congruence).
    destruct (calm_busy ls H HI) as (p' & rest & (_ & _ & (b & c & d & HS) & _ & _ & C5 & _) & HB).
    destruct (busy_drop b c d rest HS HB) as [_ HE]. specialize (C5 i). rewrite HE in C5. tauto.
  - intros HG. destruct (calm_life ppri psqr ls H) as [[_ (_ & R & _)]|(p & rest & _ & _ & _ & C3 & _)]; [exact R|].
    destruct C3 as [(q & a & E & _)|(E & _)]; destruct (HG p) as [X|X]; congruence.
Qed.
(** A sequence is among the children of its parent, and of no other sequence, from start() to
    its return. *)
Theorem C115_children ls : one_at_a_time sq0 ls ->
  ((exists p, ~ gone (fst (life ls)) p) -> forall q, kids (fst (life ls)) q = true <-> par (fst (life ls)) = Some q) /\
  ((forall p, gone (fst (life ls)) p) -> forall q, kids (fst (life ls)) q = false).
Proof.
  intros H. destruct (calm_life ppri psqr ls H) as [[HG (_ & _ & R)]|(p & rest & _ & _ & _ & C3 & _ & _ & C6)]; split.
  - intros [p X]. destruct (X (HG p)).
  - intros _. exact R.
  - intros _. exact C6.
  - intros HG. destruct C3 as [(q & a & E & _)|(E & _)]; destruct (HG p) as [X|X]; congruence.
Qed.
(** Every start() with a sequencer gets an id under which the sequencer had nothing. *)
Lemma ids ls : forall i, gid (fst (life ls)) <= i -> regd (fst (life ls)) i = false.
Proof.
  induction ls as [|l ls IH] using rev_ind; intros i; [reflexivity|]. destruct (life_snoc ls l) as [-> _].
  set (s := fst (life ls)) in *. specialize (IH i).
  destruct l as [p q b z c|p|p|ph| |v| |m|]; cbn [SeqLifeModel.step].
  - destruct (procs s p); try exact IH. destruct s as [st0 apo0 sp0 par0 sqr0 pri0 kids0 sid0 regd0 gid0 fin0 procs0]. unfold SeqLifeModel.start.
    destruct (negb _); [exact IH|]. destruct (z <? -1)%Z; [exact IH|]. destruct (if b then _ else _); cbn [fst gid regd] in *; [|exact IH].
    intros L. unfold upd. destruct (Nat.eqb_spec i gid0); [lia|]. apply IH. lia.
  - destruct (procs s p) as [|[|l rest] q a| |]; try exact IH.
    assert (K : forall l s i, (gid s <= i -> regd s i = false) -> gid (fst (acts p q s l)) <= i -> regd (fst (acts p q s l)) i = false).
    { clear. induction l as [|a l IHl]; intros s i IH; cbn [acts]; [exact IH|].
      assert (E : gid (fst (act p q s a)) <= i -> regd (fst (act p q s a)) i = false).
      { destruct s as [st0 apo0 sp0 par0 sqr0 pri0 kids0 sid0 regd0 gid0 fin0 procs0]. destruct a; cbn [act]; try exact IH; try (destruct (truthy _); exact IH).
        cbn [fst gid regd] in *. intros L. destruct sqr0; [|now apply IH]. destruct sid0; [|now apply IH]. unfold upd. destruct (Nat.eqb i n); [reflexivity|now apply IH]. }
      destruct (act p q s a) as [s1 o1]. cbn [fst] in *. specialize (IHl s1 i E). destruct (acts p q s1 l). exact IHl. }
    specialize (K l s i IH). destruct (acts p q s l) as [s1 o]. cbn [fst] in *. now destruct s1.
  - destruct (procs s p) as [|rest q [h|]| |]; try exact IH. now destruct s.
  - now destruct s.
  - now destruct s.
  - now destruct s.
  - now destruct s.
  - exact IH.
  - destruct s as [st0 apo0 sp0 par0 sqr0 pri0 kids0 sid0 regd0 gid0 fin0 procs0]. cbn [fst gid regd] in *. intros L. apply IH. lia.
Qed.
Theorem C115_fresh ls p q z c : accepted ls p q true z c ->
  exists i, regd (fst (life ls)) i = false /\ sid (fst (life (ls ++ [LStart p q true z c]))) = Some i /\
    regd (fst (life (ls ++ [LStart p q true z c]))) i = true.
Proof.
  intros [HP HA]. exists (gid (fst (life ls))). split; [apply ids; lia|]. destruct (life_snoc ls (LStart p q true z c)) as [-> _].
  cbn [SeqLifeModel.step] in *. rewrite HP in *.
  destruct (fst (life ls)) as [st0 apo0 sp0 par0 sqr0 pri0 kids0 sid0 regd0 gid0 fin0 procs0]. unfold SeqLifeModel.start in *.
  destruct (negb _); [discriminate|]. destruct (z <? -1)%Z; [discriminate|]. cbn. split; [reflexivity|apply upd_eq].
Qed.
(** Whatever ids other sequences get, before or after, it is none of them. *)
Lemma ids_step s l : gid s <= gid (fst (step s l)) /\ forall i, In (OOther i) (snd (step s l)) -> gid s <= i < gid (fst (step s l)).
Proof.
  destruct l as [p q b z c|p|p|ph| |v| |m|]; cbn [SeqLifeModel.step].
  - destruct (procs s p); try (split; [reflexivity|intros i []]). destruct s as [st0 apo0 sp0 par0 sqr0 pri0 kids0 sid0 regd0 gid0 fin0 procs0]. unfold SeqLifeModel.start.
    destruct (negb _); [split; [reflexivity|intros i [X|[]]; discriminate]|]. destruct (z <? -1)%Z; [split; [reflexivity|intros i [X|[]]; discriminate]|].
    destruct (if b then _ else _); (split; [cbn; lia|intros i []]).
  - destruct (procs s p) as [|[|l rest] q a| |]; try (split; [reflexivity|intros i []]).
    assert (K : forall l s, gid s <= gid (fst (acts p q s l)) /\ forall i, ~ In (OOther i) (snd (acts p q s l))).
    { clear. induction l as [|a l IHl]; intros s; cbn [acts]; [split; [reflexivity|intros i []]|].
      assert (E : gid (fst (act p q s a)) = gid s /\ forall i, ~ In (OOther i) (snd (act p q s a))).
      { destruct s as [st0 apo0 sp0 par0 sqr0 pri0 kids0 sid0 regd0 gid0 fin0 procs0]. destruct a; cbn [act];
          repeat match goal with |- context [truthy ?v] => destruct (truthy v) | |- context [match g_val ?v with _ => _ end] => destruct (g_val v)
            | |- context [match q with _ => _ end] => destruct q end; cbn; split; try reflexivity; intros i H; repeat destruct H as [H|H]; try discriminate; try exact H. }
      destruct (act p q s a) as [s1 o1]. cbn [fst snd] in *. specialize (IHl s1). destruct (acts p q s1 l) as [s2 o2]. cbn [fst snd] in *.
      destruct E as [E1 E2], IHl as [I1 I2]. split; [lia|]. intros i. rewrite in_app_iff. intros [H|H]; [now apply E2 in H|now apply I2 in H]. }
    destruct (K l s) as [K1 K2]. destruct (acts p q s l) as [s1 o]. cbn [fst snd] in *. split; [now destruct s1|intros i H; destruct (K2 i H)].
  - destruct (procs s p) as [|rest q [h|]| |]; try (split; [reflexivity|intros i []]). destruct s. split; [reflexivity|intros i [X|[]]; discriminate].
  - destruct s. cbn. destruct (g_locked _); (split; [reflexivity|intros i H; repeat destruct H as [H|H]; try discriminate; destruct H]).
  - destruct s. split; [reflexivity|intros i [X|[]]; discriminate].
  - destruct s. cbn. destruct (g_locked _); (split; [reflexivity|intros i H; repeat destruct H as [H|H]; try discriminate; destruct H]).
  - destruct s. split; [reflexivity|intros i [X|[]]; discriminate].
  - split; [reflexivity|]. cbn [snd]. destruct (_ && _); [destruct (fin s)|]; intros i H; repeat destruct H as [H|H]; try discriminate; destruct H.
  - destruct s. cbn. split; [lia|intros i [X|[]]]. injection X as ->. lia.
Qed.
Lemma ids_run l2 : forall s, gid s <= gid (fst (run_machine step s l2)) /\
  forall i, In (OOther i) (snd (run_machine step s l2)) -> gid s <= i < gid (fst (run_machine step s l2)).
Proof.
  induction l2 as [|l l2 IH]; intros s; cbn [run_machine]; [split; [reflexivity|intros i []]|].
  destruct (ids_step s l) as [A B]. destruct (step s l) as [s1 o1]. cbn [fst snd] in *. destruct (IH s1) as [C D].
  destruct (run_machine step s1 l2) as [s2 o2]. cbn [fst snd] in *. split; [lia|]. intros i. rewrite in_app_iff. intros [H|H].
  - apply B in H. lia.
  - apply D in H. lia.
Qed.
Theorem C115_distinct ls p q b z c l2 i j : accepted ls p q b z c ->
  sid (fst (life (ls ++ [LStart p q b z c]))) = Some j ->
  In (OOther i) (snd (life (ls ++ LStart p q b z c :: l2))) -> i <> j.
Proof.
  intros [HP HA] HS HI. replace (ls ++ LStart p q b z c :: l2) with ((ls ++ [LStart p q b z c]) ++ l2) in HI by now rewrite <- app_assoc.
  rewrite life_app in HI. cbn [snd] in HI. destruct (life_snoc ls (LStart p q b z c)) as [E1 E2]. rewrite E1 in *. rewrite E2 in HI.
  destruct (ids_run ls sq0) as [_ HL]. destruct (ids_run l2 (fst (step (fst (life ls)) (LStart p q b z c)))) as [_ HR].
  change (run_machine step sq0 ls) with (life ls) in HL. set (s := fst (life ls)) in *.
  assert (J : j = gid s /\ gid (fst (step s (LStart p q b z c))) = S j /\ snd (step s (LStart p q b z c)) = []).
  { clear -HP HA HS. cbn [SeqLifeModel.step] in *. rewrite HP in *.
    destruct s as [st0 apo0 sp0 par0 sqr0 pri0 kids0 sid0 regd0 gid0 fin0 procs0]. unfold SeqLifeModel.start in *.
    destruct (negb _); [discriminate|]. destruct (z <? -1)%Z; [discriminate|]. destruct (if b then _ else _); cbn in *; [|discriminate].
    injection HS as ->. auto. }
  destruct J as (-> & J1 & J2). rewrite J2, app_nil_r in HI. rewrite J1 in HR. apply in_app_iff in HI. destruct HI as [H|H].
  - apply HL in H. lia.
  - apply HR in H. lia.
Qed.
(** Without a sequencer it has no id. *)
Theorem C115_no_id ls p q b z c : accepted ls p q b z c -> sqr (fst (life (ls ++ [LStart p q b z c]))) = false ->
  sid (fst (life (ls ++ [LStart p q b z c]))) = None.
Proof.
  intros [HP HA]. destruct (life_snoc ls (LStart p q b z c)) as [-> _].
  cbn [SeqLifeModel.step] in *. rewrite HP in *.
  destruct (fst (life ls)) as [st0 apo0 sp0 par0 sqr0 pri0 kids0 sid0 regd0 gid0 fin0 procs0]. unfold SeqLifeModel.start in *.
  destruct (negb _); [discriminate|]. destruct (z <? -1)%Z; [discriminate|]. destruct (if b then _ else _); cbn; [discriminate|reflexivity].
Qed.
(** When start() returns, the setting of automatic objections is kept and can be changed again,
    and there is no starting phase. *)
Theorem C114_after ls p : In (OReturned p) (snd (step (fst (life ls)) (LRun p))) ->
  let s := fst (life ls) in let s' := fst (step s (LRun p)) in
  g_val (apo s') = g_val (apo s) /\ g_val (sp s') = None /\
  (forall v, snd (step s' (LSetApo v)) = [] /\ g_val (apo (fst (step s' (LSetApo v)))) = Some v) /\
  (forall v, snd (step s' (LSetPhase v)) = [] /\ g_val (sp (fst (step s' (LSetPhase v)))) = Some v).
Proof.
  intros H s s'. destruct (known ls p) as [[X _]|(q & c & n & K)].
  { exfalso. unfold s in *. cbn [SeqLifeModel.step] in H. rewrite X in H. destruct H. }
  unfold followed in K. fold s in H, K. unfold s' in *. clear s'. cbn [SeqLifeModel.step] in *.
  destruct (procs s p) as [|[|l rest] q' a| |] eqn:EP; try (destruct H; fail).
  destruct K as (-> & d & HS & _).
  assert (L : l = [AChild; ADaps; AReturn]).
  { assert (I : In l (segs (given q) c)) by (rewrite HS; apply in_elt).
    assert (HR : In AReturn l).
    { assert (Q : forall l s, In (OReturned p) (snd (acts p q s l)) -> In AReturn l).
      { clear. induction l as [|a l IH]; intros s; cbn [acts]; [intros []|].
        assert (E : In (OReturned p) (snd (act p q s a)) -> a = AReturn).
        { destruct s as [st0 apo0 sp0 par0 sqr0 pri0 kids0 sid0 regd0 gid0 fin0 procs0]. destruct a; cbn [act]; auto;
          repeat match goal with |- context [truthy ?v] => destruct (truthy v) | |- context [match g_val ?v with _ => _ end] => destruct (g_val v)
            | |- context [match q with _ => _ end] => destruct q end; cbn; intros H; repeat destruct H as [H|H]; try discriminate; destruct H. }
        destruct (act p q s a) as [s1 o1]. specialize (IH s1). destruct (acts p q s1 l) as [s2 o2]. cbn [fst snd] in *.
        rewrite in_app_iff. intros [H|H]; [left; auto|right; auto]. }
      destruct (acts p q s l) as [s1 o] eqn:EA. cbn [snd] in H. apply (Q l s). now rewrite EA. }
    destruct q, c; cbn in I; repeat destruct I as [<-|I]; cbn in HR; repeat destruct HR as [HR|HR]; try discriminate; try (now destruct HR); try reflexivity; destruct I. }
  subst l. destruct s as [st0 apo0 sp0 par0 sqr0 pri0 kids0 sid0 regd0 gid0 fin0 procs0]. cbn. repeat split.
Qed.
End Props.

(** A child of sequence 7 on its sequencer, with objections to phase 3; started again alone. *)
Definition ex_ppri (q : nat) : Z := 55%Z.
Definition ex_psqr (q : nat) : bool := true.
Definition runs (p n : nat) : list lab := repeat (LRun p) n.
Definition ex_ls : list lab :=
  [LSetApo true; LSetPhase 3; LStart 0 (Some 7) false (-1) true] ++ runs 0 6 ++ [LSetPhase 4; LOther] ++ runs 0 8.
Example C113_example :
  accepted ex_ppri ex_psqr [LSetApo true; LSetPhase 3] 0 (Some 7) false (-1) true /\
  heards 0 (snd (life ex_ppri ex_psqr ex_ls)) =
    [EHook HPreStart PRE_START; EHook HPreBody PRE_BODY; EPreDo 7; EMidDo 7; EHook HBody BODY; EPostDo 7;
     EHook HPostBody POST_BODY; EHook HPostStart POST_START; EReturned] /\
  pri (fst (life ex_ppri ex_psqr ex_ls)) = 55%Z /\
  accepted ex_ppri ex_psqr ex_ls 1 None false 4 false /\
  (* a second call while the first is in body() *)
  snd (step ex_ppri ex_psqr (fst (life ex_ppri ex_psqr (firstn 8 ex_ls))) (LStart 1 None true (-1) true)) = [OFatal 1] /\
  (* body() raises *)
  In (OThrown 0) (snd (step ex_ppri ex_psqr (fst (life ex_ppri ex_psqr (firstn 8 ex_ls))) (LThrow 0))).
Proof. repeat split; try reflexivity. now left. Qed.
Example C114_example :
  one_at_a_time ex_ppri ex_psqr sq0 ex_ls /\
  map (fun n => outstanding 3 (snd (life ex_ppri ex_psqr (firstn n ex_ls)))) (seq 0 (S (length ex_ls))) =
    [0; 0; 0; 0; 1; 1; 1; 1; 1; 1; 1; 1; 1; 1; 1; 1; 0; 0; 0; 0]%Z /\
  In OLocked (snd (life ex_ppri ex_psqr ex_ls)).
Proof.
  split; [|split; [reflexivity|cbn; tauto]]. cbn. split; [exact I|]. split; [exact I|]. split; [|tauto]. split; [discriminate|]. intros p. now left.
Qed.
(** [map regd_at] and [kids_at] over all moments *)
Example C115_example :
  map (fun n => regd (fst (life ex_ppri ex_psqr (firstn n ex_ls))) 1) (seq 0 (S (length ex_ls))) =
    [false; false; false; true; true; true; true; true; true; true; true; true; true; true; true; true; true; true; false; false] /\
  map (fun n => kids (fst (life ex_ppri ex_psqr (firstn n ex_ls))) 7) (seq 0 (S (length ex_ls))) =
    [false; false; false; true; true; true; true; true; true; true; true; true; true; true; true; true; true; true; true; false] /\
  accepted ex_ppri ex_psqr ex_ls 1 None true 4 false.
Proof. repeat split; reflexivity. Qed.
(** Started again as soon as the state is FINISHED, but before the first start() has returned:
    the first's end takes the second's settings away, and the second's objection stays. *)
Definition ex_overlap : list lab :=
  [LSetApo true; LSetPhase 3; LStart 0 None true (-1) false] ++ runs 0 7 ++
  [LStart 1 None true (-1) false; LRun 1] ++ runs 0 3 ++ runs 1 10.
Theorem C114_overlap_limit :
  let '(s, tr) := life ex_ppri ex_psqr ex_overlap in
  heards 0 tr = script None false /\ heards 1 tr = script None false /\ (forall p, gone s p) /\ st s = FINISHED /\ outstanding 3 tr = 1%Z.
Proof.
  cbv. split; [reflexivity|]. split; [reflexivity|]. split; [|split; reflexivity]. intros [|[|p]]; auto.
Qed.
(** The same leaves the first start's id in the sequencer for ever. *)
Theorem C115_overlap_limit :
  let s := fst (life ex_ppri ex_psqr ex_overlap) in (forall p, gone s p) /\ regd s 1 = true /\ regd s 2 = false.
Proof. cbv. split; [|split; reflexivity]. intros [|[|p]]; auto. Qed.
(** A refused start() naming another parent changes the parent: the old one keeps the child. *)
Theorem C115_parent_limit :
  let '(s, tr) := life ex_ppri ex_psqr ([LStart 0 (Some 7) false (-1) false; LRun 0; LStart 1 (Some 8) false (-1) false] ++ runs 0 12) in
  In (OFatal 1) tr /\ (forall p, gone s p) /\ kids s 7 = true /\ par s = Some 8.
Proof.
  cbv. split; [auto 10|]. split; [|split; reflexivity]. intros [|[|p]]; auto.
Qed.
(** Without a parent argument the sequence stays a child of its old parent, but with the
    priority of a root sequence, and the parent's pre_do() and so on are not called. *)
Theorem C115_stale_parent_limit :
  let '(s, tr) := life ex_ppri ex_psqr ([LStart 0 (Some 7) false (-1) false] ++ runs 0 10 ++ [LStart 1 None false (-1) false; LRun 1]) in
  (exists r, procs s 1 = PLive r None (Some HPreStart)) /\ par s = Some 7 /\ kids s 7 = true /\ pri s = 100%Z.
Proof. cbv. split; [eauto|]. auto. Qed.
(** An illegal priority is found too late: the parent has the child for ever. *)
Theorem C115_priority_limit :
  let '(s, tr) := life ex_ppri ex_psqr [LStart 0 (Some 7) false (-2) false] in
  tr = [OFatal 0] /\ (forall p, gone s p) /\ kids s 7 = true.
Proof. cbv. auto. Qed.
Print Assumptions C113_order.
Print Assumptions C113_completes.
Print Assumptions C113_exclusive.
Print Assumptions C113_restart.
Print Assumptions C113_refused.
Print Assumptions C113_exception.
Print Assumptions C113_wait.
Print Assumptions C113_priority.
Print Assumptions C114_balanced.
Print Assumptions C114_after.
Print Assumptions C115_distinct.
Print Assumptions C115_no_id.
Print Assumptions C114_window.
Print Assumptions C114_outside.
Print Assumptions C114_finished.
Print Assumptions C115_registered.
Print Assumptions C115_children.
Print Assumptions C115_fresh.
Print Assumptions C114_overlap_limit.
Print Assumptions C115_overlap_limit.
Print Assumptions C115_parent_limit.
Print Assumptions C115_stale_parent_limit.
Print Assumptions C115_priority_limit.
