(** Proofs about the life of a sequence. *)
From Coq Require Import ZArith List Bool Arith Lia.
From Verif Require Import Prelude DapModel SeqLifeModel SeqLifeSpec.
Import ListNotations.

Definition given (q : option nat) : bool := match q with Some _ => true | None => false end.
(** What actions do to the state shown, and what is heard of them. *)
Fixpoint trace_of (q : option nat) (x : sstate) (l : list action) : list ev * sstate :=
  match l with
  | [] => ([], x)
  | a :: l' =>
      let e := match a with
               | ACall h => [EHook h x]
               | APreDo => match q with Some q => [EPreDo q] | None => [] end
               | AMidDo => match q with Some q => [EMidDo q] | None => [] end
               | APostDo => match q with Some q => [EPostDo q] | None => [] end
               | AReturn => [EReturned]
               | _ => []
               end in
      let x' := match a with ASet y => y | _ => x end in
      let '(es, z) := trace_of q x' l' in (e ++ es, z)
  end.
Lemma trace_app q l1 : forall x l2, trace_of q x (l1 ++ l2) =
  (fst (trace_of q x l1) ++ fst (trace_of q (snd (trace_of q x l1)) l2), snd (trace_of q (snd (trace_of q x l1)) l2)).
Proof.
  induction l1 as [|a l1 IH]; intros x l2; cbn [app trace_of].
  - cbn [fst snd app]. apply surjective_pairing.
  - rewrite IH. destruct (trace_of q _ l1) as [es z]. cbn [fst snd]. now rewrite app_assoc.
Qed.
Lemma trace_script q cpp : trace_of q PRE_START (concat (segs (given q) cpp)) = (script q cpp, FINISHED).
Proof. destruct q, cpp; reflexivity. Qed.

Lemma act_frame p q s a : procs (fst (act p q s a)) = procs s /\ gid (fst (act p q s a)) = gid s /\
  sqr (fst (act p q s a)) = sqr s /\ par (fst (act p q s a)) = par s /\ pri (fst (act p q s a)) = pri s /\
  sid (fst (act p q s a)) = sid s.
Proof. destruct s. destruct a; cbn; try (destruct (truthy _)); cbn; auto 10. Qed.
Lemma acts_frame p q l : forall s, procs (fst (acts p q s l)) = procs s /\ gid (fst (acts p q s l)) = gid s /\
  sqr (fst (acts p q s l)) = sqr s /\ par (fst (acts p q s l)) = par s /\ pri (fst (acts p q s l)) = pri s /\
  sid (fst (acts p q s l)) = sid s.
Proof.
  induction l as [|a l IH]; intros s; cbn [acts]; [cbn; auto 10|].
  destruct (act_frame p q s a) as (A1 & A2 & A3 & A4 & A5 & A6). destruct (act p q s a) as [s1 o1]. cbn [fst] in *.
  specialize (IH s1). destruct (acts p q s1 l) as [s2 o2]. cbn [fst] in *. intuition congruence.
Qed.
Lemma heards_app p a b : heards p (a ++ b) = heards p a ++ heards p b.
Proof. apply flat_map_app. Qed.
Lemma act_trace p q s a : (heards p (snd (act p q s a)), st (fst (act p q s a))) = trace_of q (st s) [a] /\
  forall p', p' <> p -> heards p' (snd (act p q s a)) = [].
Proof.
  destruct s as [st0 apo0 sp0 par0 sqr0 pri0 kids0 sid0 regd0 gid0 fin0 procs0].
  assert (N : forall p', p' <> p -> Nat.eqb p' p = false) by (intros; now apply Nat.eqb_neq).
  destruct a; cbn; try (destruct (truthy _)); try (destruct (g_val sp0)); try (destruct q); cbn;
    rewrite ?Nat.eqb_refl; split; try reflexivity; intros p' H; rewrite ?(N p' H); reflexivity.
Qed.
Lemma acts_trace p q l : forall s, (heards p (snd (acts p q s l)), st (fst (acts p q s l))) = trace_of q (st s) l /\
  forall p', p' <> p -> heards p' (snd (acts p q s l)) = [].
Proof.
  induction l as [|a l IH]; intros s; cbn [acts]; [split; [reflexivity|auto]|].
  destruct (act_trace p q s a) as [A1 A2]. destruct (act p q s a) as [s1 o1]. cbn [fst snd] in *.
  specialize (IH s1). destruct (acts p q s1 l) as [s2 o2]. cbn [fst snd] in *. destruct IH as [I1 I2]. split.
  - change (a :: l) with ([a] ++ l). rewrite trace_app, <- A1. cbn [fst snd]. rewrite <- I1. cbn [fst snd]. now rewrite heards_app.
  - intros p' H. now rewrite heards_app, A2, I2.
Qed.

(** Still to be finished *)
Definition is_fin (a : action) : bool := match a with ASet FINISHED => true | _ => false end.
Definition busy (rest : list (list action)) : bool := existsb is_fin (concat rest).
Definition busy_p (s : sq) (p : nat) : Prop :=
  match procs s p with PLive rest _ _ => busy rest = true | PDead => True | _ => False end.
Definition idle (x : sstate) : bool := sstate_eqb x CREATED || sstate_eqb x FINISHED.
(** What every segment of a start() does to the state *)
Definition seg_ok (l : list action) (rest : list (list action)) : bool :=
  (match awaits l with Some _ => busy rest | None => true end &&
   (busy (l :: rest) || forallb (fun a => match a with ACall _ => false | _ => true end) l) &&
   (negb (busy (l :: rest)) || busy rest || existsb (fun a => match a with AEvent => true | _ => false end) l)) &&
  (if busy (l :: rest) then
    if busy rest then forallb (fun a => match a with ASet x => negb (idle x) | _ => true end) l
    else match snd (trace_of None CREATED l) with FINISHED => true | _ => false end
  else negb (busy rest) && forallb (fun a => match a with ASet x => false | _ => true end) l).
Fixpoint all_ok (l : list (list action)) : bool :=
  match l with [] => true | x :: r => seg_ok x r && all_ok r end.
Lemma segs_ok b cpp : all_ok (segs b cpp) = true.
Proof. destruct b, cpp; reflexivity. Qed.
Lemma all_ok_mid d : forall l r, all_ok (d ++ l :: r) = true -> seg_ok l r = true.
Proof.
  induction d as [|x d IH]; intros l r H; cbn [app all_ok] in H; apply andb_true_iff in H; [tauto|]. apply IH. tauto.
Qed.
Lemma trace_state_indep q q' l : forall x, snd (trace_of q x l) = snd (trace_of q' x l).
Proof.
  induction l as [|a l IH]; intros x; cbn [trace_of]; [reflexivity|]. specialize (IH (match a with ASet y => y | _ => x end)).
  destruct (trace_of q _ l), (trace_of q' _ l). exact IH.
Qed.
Lemma trace_no_set q l : forall x, forallb (fun a => match a with ASet x => false | _ => true end) l = true -> snd (trace_of q x l) = x.
Proof.
  induction l as [|a l IH]; intros x H; cbn [trace_of forallb] in *; [reflexivity|]. apply andb_true_iff in H. destruct H as [H1 H2].
  specialize (IH x H2). destruct a; try discriminate; destruct (trace_of q x l); exact IH.
Qed.
Lemma trace_non_idle q l : forall x, forallb (fun a => match a with ASet x => negb (idle x) | _ => true end) l = true ->
  idle x = false -> idle (snd (trace_of q x l)) = false.
Proof.
  induction l as [|a l IH]; intros x H Hx; cbn [trace_of forallb] in *; [exact Hx|]. apply andb_true_iff in H. destruct H as [H1 H2].
  specialize (IH (match a with ASet y => y | _ => x end) H2). destruct a; destruct (trace_of q _ l); cbn [snd] in *; apply IH; auto.
  match goal with |- idle ?y = false => now destruct (idle y) end.
Qed.
Lemma trace_last_set q l : forall x y, snd (trace_of q x l) = FINISHED -> x <> FINISHED -> snd (trace_of q y l) = FINISHED.
Proof.
  induction l as [|a l IH]; intros x y H Hx; cbn [trace_of] in *; [contradiction|].
  destruct a; try (specialize (IH x y); destruct (trace_of q x l), (trace_of q y l); auto; fail).
Qed.

Lemma trace_no_call q l : forallb (fun a => match a with ACall _ => false | _ => true end) l = true ->
  forall x y, fst (trace_of q x l) = fst (trace_of q y l).
Proof.
  induction l as [|a l IH]; intros H x y; cbn [trace_of forallb] in *; [reflexivity|]. apply andb_true_iff in H. destruct H as [H1 H2].
  specialize (IH H2 (match a with ASet y => y | _ => x end) (match a with ASet y => y | _ => y end)).
  destruct (trace_of q _ l), (trace_of q _ l). cbn [fst] in *. rewrite IH. now destruct a.
Qed.
Lemma acts_fin p q l : forall s, fin (fst (acts p q s l)) = fin s || existsb (fun a => match a with AEvent => true | _ => false end) l.
Proof.
  induction l as [|a l IH]; intros s; cbn [acts existsb]; [now rewrite orb_false_r|].
  assert (A : fin (fst (act p q s a)) = fin s || match a with AEvent => true | _ => false end).
  { destruct s. destruct a; cbn; try (destruct (truthy _)); cbn; rewrite ?orb_false_r, ?orb_true_r; reflexivity. }
  destruct (act p q s a) as [s1 o1]. cbn [fst] in *. specialize (IH s1). destruct (acts p q s1 l) as [s2 o2]. cbn [fst] in *.
  rewrite IH, A. now rewrite orb_assoc.
Qed.

Section Inv.
Context (ppri : nat -> Z) (psqr : nat -> bool).
Notation step := (step ppri psqr).
Notation start := (start ppri psqr).
Notation life := (life ppri psqr).

Lemma setp_procs s p x : procs (setp s p x) = upd (procs s) p x /\ st (setp s p x) = st s.
Proof. destruct s. auto. Qed.

Lemma start_spec s p q b z c :
  (idle (st s) = true /\ (-1 <= z)%Z /\ st (fst (start s p q b z c)) = PRE_START /\ snd (start s p q b z c) = [] /\
   procs (fst (start s p q b z c)) = upd (procs s) p (PLive (segs (given q) c) q None)) \/
  ((idle (st s) = false \/ (z < -1)%Z) /\ st (fst (start s p q b z c)) = st s /\ snd (start s p q b z c) = [OFatal p] /\
   procs (fst (start s p q b z c)) = procs s).
Proof.
  destruct s as [st0 apo0 sp0 par0 sqr0 pri0 kids0 sid0 regd0 gid0 fin0 procs0]. unfold SeqLifeModel.start. cbn [st procs].
  fold (idle st0). destruct (idle st0); cbn [negb]; [|right; cbn; auto].
  destruct (Z.ltb_spec z (-1)) as [L|L]; [right; cbn; auto|left].
  destruct (if b then _ else _); cbn; auto 10.
Qed.
(** Calls and states *)
Record good (s : sq) : Prop := Good {
  g_suffix : forall p rest q a, procs s p = PLive rest q a -> (exists c d, segs (given q) c = d ++ rest) /\ (a <> None -> busy rest = true);
  g_one : forall p p', busy_p s p -> busy_p s p' -> p = p';
  g_idle : idle (st s) = true <-> forall p, ~ busy_p s p
}.
Lemma good0 : good sq0.
Proof. split; cbn; [discriminate|intros p p' []|]. split; [intros _ p []|reflexivity]. Qed.
Lemma good_same s s' : procs s' = procs s -> st s' = st s -> good s -> good s'.
Proof.
  intros E1 E2 [G1 G2 G3]. assert (B : forall p, busy_p s' p <-> busy_p s p) by (intros p; unfold busy_p; rewrite E1; tauto). split.
  - intros. rewrite E1 in H. eauto.
  - intros p p' H H'. apply G2; now apply B.
  - rewrite E2, G3. split; intros H p Hp; apply (H p), B, Hp.
Qed.
Lemma busy_segs b c : busy (segs b c) = true.
Proof. destruct b, c; reflexivity. Qed.
(** What running one segment does, in a good state *)
Lemma run_seg s p l rest q a : good s -> procs s p = PLive (l :: rest) q a ->
  let s' := fst (step s (LRun p)) in
  procs s' = upd (procs s) p (match rest with [] => PDone | _ => PLive rest q (awaits l) end) /\
  (heards p (snd (step s (LRun p))), st s') = trace_of q (st s) l /\
  (forall p', p' <> p -> heards p' (snd (step s (LRun p))) = []) /\
  (awaits l <> None -> busy rest = true) /\
  (busy (l :: rest) = false -> forall x, fst (trace_of q x l) = fst (trace_of q (st s) l)) /\
  (busy (l :: rest) = true -> busy rest = false -> fin s' = true) /\
  (fin s = true -> fin s' = true) /\
  (busy (l :: rest) = false -> st s' = st s /\ busy rest = false) /\
  (busy (l :: rest) = true -> idle (st s) = false /\ (busy rest = false /\ st s' = FINISHED \/ busy rest = true /\ idle (st s') = false)).
Proof.
  intros [G1 G2 G3] HP. cbn [SeqLifeModel.step]. rewrite HP. destruct (acts_frame p q l s) as (F1 & _).
  destruct (acts_trace p q l s) as [T1 T2]. destruct (acts p q s l) as [s1 o] eqn:E. cbn [fst snd] in *.
  destruct (setp_procs s1 p (match rest with [] => PDone | _ => PLive rest q (awaits l) end)) as [S1 S2]. rewrite S1, S2, F1.
  split; [reflexivity|]. split; [exact T1|]. split; [exact T2|].
  assert (TS : st s1 = snd (trace_of q (st s) l)) by now rewrite <- T1. rewrite TS.
  destruct (G1 p _ q a HP) as ((c & d & HS) & _). pose proof (segs_ok (given q) c) as HA. rewrite HS in HA. apply all_ok_mid in HA.
  unfold seg_ok in HA. apply andb_true_iff in HA. destruct HA as [HW HA].
  apply andb_true_iff in HW. destruct HW as [HW HE]. apply andb_true_iff in HW. destruct HW as [HW HC].
  split; [intros HN; now destruct (awaits l)|].
  split; [intros HB x; rewrite HB in HC; now apply trace_no_call|].
  assert (FN : fin (setp s1 p (match rest with [] => PDone | _ => PLive rest q (awaits l) end)) = fin s || existsb (fun a => match a with AEvent => true | _ => false end) l).
  { replace s1 with (fst (acts p q s l)) by now rewrite E. rewrite <- acts_fin with (p := p) (q := q). now destruct (fst (acts p q s l)). }
  rewrite FN. split; [intros HB HR; rewrite HB, HR in HE; cbn in HE; rewrite HE; apply orb_true_r|].
  split; [intros ->; reflexivity|].
  split; intros HB; rewrite HB in HA.
  - apply andb_true_iff in HA. destruct HA as [H1 H2]. split; [now apply trace_no_set|]. now destruct (busy rest).
  - assert (HI : idle (st s) = false).
    { destruct (idle (st s)) eqn:X; [|reflexivity]. destruct (proj1 G3 eq_refl p). unfold busy_p. now rewrite HP. }
    split; [exact HI|]. destruct (busy rest) eqn:BR.
    + right. split; [reflexivity|]. now apply trace_non_idle.
    + left. split; [reflexivity|]. rewrite (trace_state_indep q None). apply (trace_last_set None l CREATED); [|discriminate].
      now destruct (snd (trace_of None CREATED l)).
Qed.
Lemma good_step s l : good s -> good (fst (step s l)).
Proof.
  intros G. pose proof G as [G1 G2 G3].
  assert (IB : forall p, busy_p s p -> idle (st s) = false).
  { intros p H. destruct (idle (st s)) eqn:X; [|reflexivity]. now destruct (proj1 G3 eq_refl p). }
  destruct l as [p q b z c|p|p| | | | | |].
  - cbn [SeqLifeModel.step]. destruct (procs s p) eqn:EP; try exact G.
    destruct (start_spec s p q b z c) as [(HI & _ & HS & _ & HP)|(_ & HS & _ & HP)]; [|eapply good_same; eauto].
    assert (NB : forall p', ~ busy_p s p') by now apply G3.
    assert (BE : forall p', busy_p (fst (start s p q b z c)) p' -> p' = p).
    { intros p' H. destruct (Nat.eq_dec p' p) as [|N]; [assumption|]. unfold busy_p in H. rewrite HP, upd_neq in H by exact N. destruct (NB p' H). }
    split.
    + intros p' rest q' a H. rewrite HP in H. destruct (Nat.eq_dec p' p) as [->|N]; [|rewrite upd_neq in H by exact N; eauto].
      rewrite upd_eq in H. injection H as <- <- <-. split; [exists c, []; reflexivity|congruence].
    + intros p1 p2 H1 H2. now rewrite (BE p1 H1), (BE p2 H2).
    + rewrite HS. cbn. split; [discriminate|]. intros H. exfalso. apply (H p). unfold busy_p. rewrite HP, upd_eq. apply busy_segs.
  - destruct (procs s p) as [|rest q a| |] eqn:EP; try (cbn [SeqLifeModel.step]; rewrite EP; exact G).
    destruct rest as [|l rest]; [cbn [SeqLifeModel.step]; rewrite EP; exact G|].
    destruct (run_seg s p l rest q a G EP) as (HP & _ & _ & HW & _ & _ & _ & H0 & H1). cbv zeta in *.
    set (s' := fst (step s (LRun p))) in *. clearbody s'.
    assert (BP : busy_p s' p <-> busy rest = true).
    { unfold busy_p. rewrite HP, upd_eq. destruct rest; [cbn; split; [intros []|discriminate]|tauto]. }
    assert (BO : forall p', p' <> p -> busy_p s' p' <-> busy_p s p').
    { intros p' N. unfold busy_p. rewrite HP, upd_neq by exact N. tauto. }
    assert (BL : busy_p s p <-> busy (l :: rest) = true) by (unfold busy_p; rewrite EP; tauto).
    split.
    + intros p' rest' q' a' H. rewrite HP in H. destruct (Nat.eq_dec p' p) as [->|N]; [|rewrite upd_neq in H by exact N; eauto].
      rewrite upd_eq in H. destruct (G1 p _ q a EP) as ((c & d & HS) & _). destruct rest; [discriminate|]. injection H as <- <- <-.
      split; [exists c, (d ++ [l]); now rewrite <- app_assoc|exact HW].
    + intros p1 p2 B1 B2. apply G2.
      * destruct (Nat.eq_dec p1 p) as [->|N]; [|now apply BO]. apply BL. destruct (busy (l :: rest)) eqn:X; [reflexivity|].
        apply BP in B1. destruct (H0 eq_refl). congruence.
      * destruct (Nat.eq_dec p2 p) as [->|N]; [|now apply BO]. apply BL. destruct (busy (l :: rest)) eqn:X; [reflexivity|].
        apply BP in B2. destruct (H0 eq_refl). congruence.
    + destruct (busy (l :: rest)) eqn:X.
      * destruct (H1 eq_refl) as [HI [[BR SF]|[BR SF]]].
        -- rewrite SF. split; [intros _|reflexivity]. intros p' B. destruct (Nat.eq_dec p' p) as [->|N]; [apply BP in B; congruence|].
           apply BO in B; [|exact N]. apply N. apply G2; [exact B|]. now apply BL.
        -- rewrite SF. split; [discriminate|]. intros H. exfalso. apply (H p). now apply BP.
      * destruct (H0 eq_refl) as [-> BR]. rewrite G3. split; intros H p' B.
        -- apply (H p'). destruct (Nat.eq_dec p' p) as [->|N]; [apply BP in B; congruence|]. now apply BO.
        -- apply (H p'). destruct (Nat.eq_dec p' p) as [->|N]; [apply BL in B; congruence|]. now apply BO.
  - cbn [SeqLifeModel.step]. destruct (procs s p) as [|rest q a| |] eqn:EP; try exact G. destruct a as [h|]; [|exact G].
    destruct (setp_procs s p PDead) as [S1 S2]. cbn [fst].
    assert (BP : busy_p s p) by (unfold busy_p; rewrite EP; apply (proj2 (G1 p rest q (Some h) EP)); discriminate).
    assert (BO : forall p', busy_p (setp s p PDead) p' <-> busy_p s p').
    { intros p'. destruct (Nat.eq_dec p' p) as [->|N]; [|unfold busy_p; rewrite S1, upd_neq by exact N; tauto].
      split; [intros _; exact BP|]. intros _. unfold busy_p. now rewrite S1, upd_eq. }
    split.
    + intros p' rest' q' a' H. rewrite S1 in H. destruct (Nat.eq_dec p' p) as [->|N]; [rewrite upd_eq in H; discriminate|].
      rewrite upd_neq in H by exact N. eauto.
    + intros p1 p2 B1 B2. apply G2; now apply BO.
    + rewrite S2, G3. split; intros H p' B; apply (H p'), BO, B.
  - destruct s. eapply good_same; [| |exact G]; reflexivity.
  - destruct s. eapply good_same; [| |exact G]; reflexivity.
  - destruct s. eapply good_same; [| |exact G]; reflexivity.
  - destruct s. eapply good_same; [| |exact G]; reflexivity.
  - exact G.
  - destruct s. eapply good_same; [| |exact G]; reflexivity.
Qed.

Lemma run_good ls : forall s, good s -> good (fst (run_machine step s ls)).
Proof.
  induction ls as [|l ls IH]; intros s G; cbn [run_machine]; [exact G|]. pose proof (good_step s l G) as G1.
  destruct (step s l) as [s1 o1]. cbn [fst] in G1. specialize (IH s1 G1). destruct (run_machine step s1 ls). exact IH.
Qed.
Lemma life_good ls : good (fst (life ls)).
Proof. apply run_good, good0. Qed.

(** Following one call *)
Definition followed (p : nat) (q : option nat) (c : bool) (n : nat) (s : sq) (h : list ev) : Prop :=
  match procs s p with
  | PLive rest q' a => q' = q /\ exists d, segs (given q) c = d ++ rest /\ rest <> [] /\ length d = n /\
      h = fst (trace_of q PRE_START (concat d)) /\ (busy rest = true -> st s = snd (trace_of q PRE_START (concat d)))
  | PDead => exists k, h = firstn k (script q c)
  | PDone => h = script q c
  | PNone => False
  end.
Lemma followed_same p q c n s s' h : procs s' p = procs s p -> (st s' = st s \/ ~ busy_p s p) ->
  followed p q c n s h -> followed p q c n s' h.
Proof.
  intros E1 E2. unfold followed. rewrite E1. destruct (procs s p) as [|rest q' a| |] eqn:EP; auto.
  intros (HQ & d & H1 & H2 & H3 & H4 & H5). split; [exact HQ|]. exists d. split; [exact H1|]. split; [exact H2|]. split; [exact H3|]. split; [exact H4|].
  intros B. destruct E2 as [->|N]; [now apply H5|]. exfalso. apply N. unfold busy_p. now rewrite EP.
Qed.
Lemma followed_step p q c n s h l : good s -> followed p q c n s h ->
  followed p q c (n + if is_run p l then 1 else 0) (fst (step s l)) (h ++ heards p (snd (step s l))) /\
  (procs (fst (step s l)) p = PDead -> procs s p = PDead \/ is_throw p l = true).
Proof.
  intros G HK. pose proof G as [G1 G2 G3].
  assert (KN : procs s p <> PNone) by (intros X; unfold followed in HK; now rewrite X in HK).
  destruct l as [p' q' b z c'|p'|p'|ph| |v| |m|]; cbn [is_run is_throw]; rewrite ?Nat.add_0_r.
  - cbn [SeqLifeModel.step]. destruct (procs s p') eqn:EP; try (cbn [fst snd heards flat_map]; rewrite app_nil_r; auto; fail).
    assert (N : p <> p') by congruence.
    destruct (start_spec s p' q' b z c') as [(HI & _ & HS & HO & HP)|(_ & HS & HO & HP)]; rewrite HO; cbn [heards flat_map heard app]; rewrite app_nil_r.
    + assert (E : procs (fst (start s p' q' b z c')) p = procs s p) by now rewrite HP, upd_neq.
      split; [|rewrite E; auto]. apply followed_same with (s := s); [exact E|right; now apply G3|exact HK].
    + assert (E : procs (fst (start s p' q' b z c')) p = procs s p) by now rewrite HP.
      split; [|rewrite E; auto]. apply followed_same with (s := s); [exact E|now left|exact HK].
  - destruct (procs s p') as [|rest q' a| |] eqn:EP;
      try (cbn [SeqLifeModel.step]; rewrite EP; cbn [fst snd heards flat_map]; rewrite app_nil_r; split; [|auto]).
    + destruct (Nat.eqb_spec p p') as [->|]; [congruence|]. now rewrite Nat.add_0_r.
    + destruct rest as [|l rest].
      * cbn [SeqLifeModel.step]. rewrite EP. cbn [fst snd heards flat_map]. rewrite app_nil_r.
        destruct (Nat.eqb_spec p p') as [->|]; [|now rewrite Nat.add_0_r; auto].
        unfold followed in HK. rewrite EP in HK. destruct HK as (_ & d & _ & X & _). congruence.
      * destruct (run_seg s p' l rest q' a G EP) as (HP & HT & HO & HW & HC & _ & _ & H0 & H1). cbv zeta in *.
        destruct (Nat.eqb_spec p p') as [<-|N].
        -- unfold followed in HK. rewrite EP in HK. destruct HK as (-> & d & K1 & K2 & K3 & K4 & K5).
           assert (HH : h ++ heards p (snd (step s (LRun p))) = fst (trace_of q PRE_START (concat (d ++ [l]))) /\
             (busy rest = true -> st (fst (step s (LRun p))) = snd (trace_of q PRE_START (concat (d ++ [l]))))).
           { rewrite concat_app. cbn [concat]. rewrite app_nil_r, trace_app. cbn [fst snd].
             apply (f_equal fst) in HT as HT1. apply (f_equal snd) in HT. cbn [fst snd] in *. rewrite K4, HT, HT1.
             destruct (busy (l :: rest)) eqn:B.
             - rewrite <- (K5 eq_refl). auto.
             - split; [now rewrite (HC eq_refl (snd (trace_of q PRE_START (concat d))))|]. intros BR. destruct (H0 eq_refl). congruence. }
           destruct HH as [HH1 HH2]. unfold followed. rewrite HP, upd_eq. destruct rest as [|r rest].
           ++ split; [|discriminate]. rewrite HH1, <- K1, trace_script. reflexivity.
           ++ split; [|discriminate]. split; [reflexivity|]. exists (d ++ [l]). split; [now rewrite <- app_assoc|]. split; [discriminate|].
              split; [rewrite app_length; cbn [length]; lia|]. auto.
        -- rewrite (HO p N), app_nil_r, Nat.add_0_r.
           assert (E : procs (fst (step s (LRun p'))) p = procs s p) by now rewrite HP, upd_neq.
           split; [|rewrite E; auto]. apply followed_same with (s := s); [exact E| |exact HK].
           destruct (busy (l :: rest)) eqn:B; [right|left; now apply H0]. intros BP. apply N. apply G2; [exact BP|].
           unfold busy_p. now rewrite EP.
    + destruct (Nat.eqb_spec p p') as [->|]; [|now rewrite Nat.add_0_r]. unfold followed in *. now rewrite EP in *.
    + destruct (Nat.eqb_spec p p') as [->|]; [|now rewrite Nat.add_0_r]. unfold followed in *. now rewrite EP in *.
  - cbn [SeqLifeModel.step]. destruct (procs s p') as [|rest q' a| |] eqn:EP; try (cbn [fst snd heards flat_map]; rewrite app_nil_r; auto; fail).
    destruct a as [hk|]; [|cbn [fst snd heards flat_map]; rewrite app_nil_r; auto].
    cbn [fst snd heards flat_map heard app]. rewrite app_nil_r. destruct (setp_procs s p' PDead) as [S1 S2].
    destruct (Nat.eqb_spec p p') as [<-|N].
    + split; [|auto]. unfold followed in *. rewrite S1, upd_eq. rewrite EP in HK. destruct HK as (-> & d & K1 & K2 & K3 & K4 & K5).
      exists (length h). pose proof (trace_script q c) as T. rewrite K1, concat_app, trace_app in T. apply (f_equal fst) in T. cbn [fst] in T.
      rewrite <- T, <- K4. rewrite firstn_app, Nat.sub_diag, firstn_all. cbn [firstn]. now rewrite app_nil_r.
    + assert (E : procs (setp s p' PDead) p = procs s p) by now rewrite S1, upd_neq.
      split; [|rewrite E; auto]. apply followed_same with (s := s); [exact E|now left|exact HK].
  - destruct s; cbn. destruct (g_locked _); cbn; rewrite app_nil_r; auto.
  - destruct s; cbn. rewrite app_nil_r; auto.
  - destruct s; cbn. destruct (g_locked _); cbn; rewrite app_nil_r; auto.
  - destruct s; cbn. rewrite app_nil_r; auto.
  - cbn. destruct (_ && _); [destruct (fin s)|]; cbn; rewrite app_nil_r; auto.
  - destruct s; cbn. rewrite app_nil_r; auto.
Qed.
Lemma followed_run p q c ls : forall n s h, good s -> followed p q c n s h ->
  followed p q c (n + length (filter (is_run p) ls)) (fst (run_machine step s ls)) (h ++ heards p (snd (run_machine step s ls))) /\
  (procs (fst (run_machine step s ls)) p = PDead -> procs s p = PDead \/ existsb (is_throw p) ls = true).
Proof.
  induction ls as [|l ls IH]; intros n s h G HK; cbn [run_machine filter length].
  - cbn [fst snd heards flat_map existsb]. rewrite Nat.add_0_r, app_nil_r. auto.
  - destruct (followed_step p q c n s h l G HK) as [K1 D1]. pose proof (good_step s l G) as G1.
    destruct (step s l) as [s1 o1]. cbn [fst snd] in *. destruct (IH _ s1 _ G1 K1) as [K2 D2].
    destruct (run_machine step s1 ls) as [s2 o2]. cbn [fst snd] in *. rewrite heards_app, app_assoc. split.
    + replace (n + length (if is_run p l then l :: filter (is_run p) ls else filter (is_run p) ls))
        with (n + (if is_run p l then 1 else 0) + length (filter (is_run p) ls)) by (destruct (is_run p l); cbn [length]; lia). exact K2.
    + intros D. cbn [existsb]. destruct (D2 D) as [X|X]; [destruct (D1 X) as [Y|Y]; [auto|rewrite Y; auto]|rewrite X, orb_true_r; auto].
Qed.
End Inv.

(** ** Objections and tables, one call at a time *)
Definition has (f : action -> bool) (rest : list (list action)) : bool := existsb f (concat rest).
Definition is_raise (a : action) : bool := match a with ARaise => true | _ => false end.
Definition is_drop (a : action) : bool := match a with ADrop => true | _ => false end.
Definition is_exit (a : action) : bool := match a with AExit => true | _ => false end.
Definition neutral (a : action) : bool := match a with ARaise | ADrop | AExit | AChild | ADaps | AReturn => false | _ => true end.
Inductive kind : list action -> list (list action) -> Prop :=
| kind_raise h rest : has is_raise rest = false -> has is_drop rest = true -> has is_exit rest = true -> rest <> [] -> kind [ARaise; ACall h] rest
| kind_neutral l rest : forallb neutral l = true -> rest <> [] -> (awaits l <> None -> has is_raise rest = false) -> kind l rest
| kind_drop rest : has is_raise rest = false -> has is_drop rest = false -> has is_exit rest = true -> rest <> [] ->
    kind [ADrop; ASet FINISHED; AEvent] rest
| kind_exit rest : has is_raise rest = false -> has is_drop rest = false -> has is_exit rest = false -> rest <> [] -> kind [AExit] rest
| kind_last : kind [AChild; ADaps; AReturn] [].
Lemma segs_kind b c d l rest : segs b c = d ++ l :: rest -> kind l rest.
Proof.
  destruct b, c; cbn; intros H;
  repeat (destruct d as [|? d]; cbn [app] in H;
    [injection H as <- <-; first [apply kind_raise; (reflexivity || discriminate) | apply kind_drop; (reflexivity || discriminate)
       | apply kind_exit; (reflexivity || discriminate) | apply kind_last | apply kind_neutral; (reflexivity || discriminate || (cbn; congruence))]
    |injection H as _ H]; try discriminate H; try (destruct d; discriminate H)).
Qed.
Lemma outstanding_app ph a b : outstanding ph (a ++ b) = (outstanding ph a + outstanding ph b)%Z.
Proof. unfold outstanding. induction a as [|x a IH]; cbn [app fold_right]; [lia|]. rewrite IH. lia. Qed.
Lemma acts_neutral p q l : forallb neutral l = true -> forall s,
  let s' := fst (acts p q s l) in
  apo s' = apo s /\ sp s' = sp s /\ kids s' = kids s /\ regd s' = regd s /\ forall ph, outstanding ph (snd (acts p q s l)) = 0%Z.
Proof.
  induction l as [|a l IH]; intros H s; cbn [acts forallb] in *; [cbn; auto|]. apply andb_true_iff in H. destruct H as [H1 H2].
  assert (A : apo (fst (act p q s a)) = apo s /\ sp (fst (act p q s a)) = sp s /\ kids (fst (act p q s a)) = kids s /\
    regd (fst (act p q s a)) = regd s /\ forall ph, outstanding ph (snd (act p q s a)) = 0%Z).
  { destruct s. destruct a; try discriminate; cbn; auto 10; destruct q; cbn; auto 10. }
  destruct A as (A1 & A2 & A3 & A4 & A5). destruct (act p q s a) as [s1 o1]. cbn [fst snd] in *. specialize (IH H2 s1).
  destruct (acts p q s1 l) as [s2 o2]. cbn [fst snd] in *. destruct IH as (I1 & I2 & I3 & I4 & I5).
  split; [congruence|]. split; [congruence|]. split; [congruence|]. split; [congruence|]. intros ph. now rewrite outstanding_app, A5, I5.
Qed.

Definition ofacts (rest : list (list action)) (s : sq) (tr : list out) : Prop :=
  if has is_raise rest then forall ph, outstanding ph tr = 0%Z
  else if has is_drop rest then
    g_locked (apo s) = true /\ (truthy (g_val (apo s)) = true -> g_locked (sp s) = true) /\
    forall ph, outstanding ph tr = if holds_for s ph then 1%Z else 0%Z
  else forall ph, outstanding ph tr = 0%Z.
Definition rfacts (rest : list (list action)) (s : sq) : Prop :=
  forall i, regd s i = true <-> has is_exit rest = true /\ sqr s = true /\ sid s = Some i.
Definition kfacts (s : sq) : Prop := forall q, kids s q = true <-> par s = Some q.
Definition resting (s : sq) (tr : list out) : Prop :=
  (forall ph, outstanding ph tr = 0%Z) /\ (forall i, regd s i = false) /\ (forall q, kids s q = false).
Definition in_call (p : nat) (rest : list (list action)) (s : sq) (tr : list out) : Prop :=
  (forall p', p' <> p -> gone s p') /\ rest <> [] /\
  (exists b c d, segs b c = d ++ rest) /\
  ((exists q a, procs s p = PLive rest q a /\ (a <> None -> has is_raise rest = false)) \/
   procs s p = PDead /\ has is_raise rest = false /\ busy rest = true) /\ ofacts rest s tr /\ rfacts rest s /\ kfacts s.
Definition calm (s : sq) (tr : list out) : Prop :=
  (forall p, gone s p) /\ resting s tr \/ exists p rest, in_call p rest s tr.
Lemma has_cons f l rest : has f (l :: rest) = existsb f l || has f rest.
Proof. unfold has. cbn [concat]. apply existsb_app. Qed.
Lemma has_neutral f l rest : (forall a, neutral a = true -> f a = false) -> forallb neutral l = true -> has f (l :: rest) = has f rest.
Proof.
  intros Hf H. unfold has. cbn [concat]. rewrite existsb_app. enough (existsb f l = false) as -> by reflexivity.
  induction l as [|a l IH]; [reflexivity|]. cbn [forallb existsb] in *. apply andb_true_iff in H. destruct H as [H1 H2].
  rewrite Hf by exact H1. now apply IH.
Qed.
(** Calls of the data access policies and such change nothing of this. *)
Lemma calm_outside s s' tr o : procs s' = procs s -> regd s' = regd s -> kids s' = kids s -> sqr s' = sqr s -> sid s' = sid s -> par s' = par s ->
  (forall ph, outstanding ph o = 0%Z) ->
  (g_locked (apo s) = true -> g_locked (apo s') = true /\ g_val (apo s') = g_val (apo s)) ->
  (g_locked (sp s) = true -> g_locked (sp s') = true /\ g_val (sp s') = g_val (sp s)) ->
  calm s tr -> calm s' (tr ++ o).
Proof.
  intros E1 E2 E3 E4 E5 E6 HO HA HS [[HG (R1 & R2 & R3)]|(p & rest & C1 & C2 & CS & C3 & C4 & C5 & C6)].
  - left. split; [intros p; unfold gone; rewrite E1; apply HG|]. split; [intros ph; rewrite outstanding_app, R1, HO; reflexivity|].
    rewrite E2, E3. auto.
  - right. exists p, rest. split; [intros p' N; unfold gone; rewrite E1; now apply C1|]. split; [exact C2|]. split; [exact CS|].
    split; [rewrite E1; exact C3|]. split; [|split; [intros i; rewrite E2, E4, E5; apply C5|intros q; rewrite E3, E6; apply C6]].
    unfold ofacts in *. assert (OP : forall ph, outstanding ph (tr ++ o) = outstanding ph tr) by (intros ph; rewrite outstanding_app, HO; lia).
    destruct (has is_raise rest); [intros ph; rewrite OP; apply C4|]. destruct (has is_drop rest); [|intros ph; rewrite OP; apply C4].
    destruct C4 as (L1 & L2 & L3). destruct (HA L1) as [A1 A2]. split; [exact A1|]. rewrite A2.
    split; [intros T; apply HS; auto|]. intros ph. rewrite OP, L3. unfold holds_for. rewrite A2.
    destruct (truthy (g_val (apo s))) eqn:T; [|reflexivity]. cbn [andb]. destruct (HS (L2 eq_refl)) as [_ ->]. reflexivity.
Qed.
Section Calm.
Context (ppri : nat -> Z) (psqr : nat -> bool).
Notation step := (step ppri psqr).
Notation start := (start ppri psqr).
Notation life := (life ppri psqr).
Lemma calm_start s p q b z c tr : good s -> (forall p, gone s p) -> resting s tr -> (-1 <= z)%Z ->
  in_call p (segs (given q) c) (fst (start s p q b z c)) (tr ++ snd (start s p q b z c)).
Proof.
  intros [_ _ G3] HG (R1 & R2 & R3) HZ.
  assert (HI : idle (st s) = true).
  { apply G3. intros p' B. unfold busy_p in B. destruct (HG p') as [X|X]; rewrite X in B; exact B. }
  destruct (start_spec ppri psqr s p q b z c) as [(_ & _ & HS & HO & HP)|([X|X] & _)]; [|congruence|lia].
  split; [intros p' N; unfold gone; rewrite HP, upd_neq by exact N; apply HG|]. split; [destruct q, c; discriminate|].
  split; [now exists (given q), c, []|].
  split; [left; exists q, None; rewrite HP, upd_eq; split; [reflexivity|congruence]|]. rewrite HO, app_nil_r.
  split; [unfold ofacts; destruct q, c; exact R1|].
  destruct s as [st0 apo0 sp0 par0 sqr0 pri0 kids0 sid0 regd0 gid0 fin0 procs0]. cbn [st regd kids] in *.
  unfold SeqLifeModel.start. fold (idle st0). rewrite HI. cbn [negb]. destruct (Z.ltb_spec z (-1)); [lia|].
  set (par' := match q with Some _ => q | None => par0 end).
  set (sqr' := if b then true else match par' with Some q0 => psqr q0 | None => false end). split.
  - intros i. destruct sqr'; cbn [fst regd sqr sid].
    + split.
      * unfold upd. destruct (Nat.eqb_spec i gid0) as [->|]; [|rewrite R2; discriminate]. intros _. split; [destruct q, c; reflexivity|auto].
      * intros (_ & _ & E). injection E as <-. apply upd_eq.
    + rewrite R2. split; [discriminate|]. intros (_ & X & _). discriminate.
  - intros x. destruct sqr'; cbn [fst kids par].
    + destruct par' as [y|]; [|rewrite R3; split; discriminate]. unfold upd. destruct (Nat.eqb_spec x y) as [->|N]; [tauto|].
      rewrite R3. split; [discriminate|]. congruence.
    + destruct par' as [y|]; [|rewrite R3; split; discriminate]. unfold upd. destruct (Nat.eqb_spec x y) as [->|N]; [tauto|].
      rewrite R3. split; [discriminate|]. congruence.
Qed.
Lemma calm_run s p l rest q a tr : good s -> procs s p = PLive (l :: rest) q a -> in_call p (l :: rest) s tr ->
  calm (fst (step s (LRun p))) (tr ++ snd (step s (LRun p))).
Proof.
  intros G EP (C1 & _ & (b & c & d & HS) & _ & C4 & C5 & C6).
  assert (CS : exists b c d, segs b c = d ++ rest) by (exists b, c, (d ++ [l]); now rewrite <- app_assoc). apply segs_kind in HS.
  cbn [SeqLifeModel.step]. rewrite EP. destruct (acts_frame p q l s) as (F1 & F2 & F3 & F4 & F5 & F6).
  assert (SE : forall s1 x, apo (setp s1 p x) = apo s1 /\ sp (setp s1 p x) = sp s1 /\ kids (setp s1 p x) = kids s1 /\ regd (setp s1 p x) = regd s1 /\
     sqr (setp s1 p x) = sqr s1 /\ sid (setp s1 p x) = sid s1 /\ par (setp s1 p x) = par s1 /\ procs (setp s1 p x) = upd (procs s1) p x).
  { intros s1 x. destruct s1. cbn. auto 10. }
  assert (GO : forall x p', p' <> p -> gone (setp (fst (acts p q s l)) p x) p').
  { intros x p' N. unfold gone. destruct (SE (fst (acts p q s l)) x) as (_ & _ & _ & _ & _ & _ & _ & ->). rewrite F1, upd_neq by exact N. now apply C1. }
  inversion HS as [h rest' X1 X2 X3 X4|l' rest' X1 X2 XA|rest' X1 X2 X3 X4|rest' X1 X2 X3 X4|]; subst.
  - (* raise *)
    right. exists p, rest. destruct rest as [|r rest]; [congruence|].
    destruct s as [st0 apo0 sp0 par0 sqr0 pri0 kids0 sid0 regd0 gid0 fin0 procs0].
    assert (O0 : forall ph, outstanding ph tr = 0%Z) by exact C4. cbn [acts act fst snd] in *.
    unfold in_call. destruct (truthy (g_val apo0)) eqn:T; cbn [acts act fst snd app setp] in *.
    + split; [apply GO|]. split; [discriminate|]. split; [exact CS|]. split; [left; cbn [procs]; rewrite upd_eq; do 2 eexists; split; [reflexivity|auto]|]. split; [|split].
      * unfold ofacts. rewrite X1, X2. cbn [apo sp gstep fst g_locked g_val]. split; [reflexivity|]. split; [reflexivity|].
        intros ph. rewrite outstanding_app, O0. unfold holds_for. cbn [apo sp g_val]. rewrite T. cbn [andb].
        destruct (g_val sp0) as [y|]; cbn; [|reflexivity]. destruct (Nat.eqb ph y); reflexivity.
      * intros i. cbn [regd sqr sid]. rewrite X3. specialize (C5 i). rewrite has_cons in C5. cbn [existsb is_exit orb regd sqr sid] in C5.
        rewrite X3 in C5. exact C5.
      * exact C6.
    + split; [apply GO|]. split; [discriminate|]. split; [exact CS|]. split; [left; cbn [procs]; rewrite upd_eq; do 2 eexists; split; [reflexivity|auto]|]. split; [|split].
      * unfold ofacts. rewrite X1, X2. cbn [apo sp gstep fst g_locked g_val]. split; [reflexivity|]. split; [congruence|].
        intros ph. rewrite outstanding_app, O0. unfold holds_for. cbn [apo sp g_val]. rewrite T. reflexivity.
      * intros i. cbn [regd sqr sid]. rewrite X3. specialize (C5 i). rewrite has_cons in C5. cbn [existsb is_exit orb regd sqr sid] in C5.
        rewrite X3 in C5. exact C5.
      * exact C6.
  - (* neutral *)
    right. exists p, rest. destruct (acts_neutral p q l X1 s) as (N1 & N2 & N3 & N4 & N5). cbv zeta in *.
    destruct (acts p q s l) as [s1 o1]. cbn [fst snd] in *.
    destruct (SE s1 (match rest with [] => PDone | _ => PLive rest q (awaits l) end)) as (S1 & S2 & S3 & S4 & S5 & S6 & S7 & S8).
    split; [apply GO|]. split; [exact X2|]. split; [exact CS|].
    split; [left; rewrite S8, upd_eq; destruct rest; [congruence|]; do 2 eexists; split; [reflexivity|exact XA]|]. split; [|split].
    + unfold ofacts in *. rewrite !has_neutral in C4 by (auto; intros []; auto; discriminate). rewrite S1, S2, N1, N2.
      assert (OP : forall ph, outstanding ph (tr ++ o1) = outstanding ph tr) by (intros ph; rewrite outstanding_app, N5; lia).
      destruct (has is_raise rest); [intros ph; rewrite OP; apply C4|]. destruct (has is_drop rest); [|intros ph; rewrite OP; apply C4].
      destruct C4 as (L1 & L2 & L3). split; [exact L1|]. split; [exact L2|]. intros ph. rewrite OP, L3. unfold holds_for. now rewrite S1, S2, N1, N2.
    + intros i. rewrite S4, S5, S6, N4, F3, F6. specialize (C5 i). rewrite has_neutral in C5 by (auto; intros []; auto; discriminate). exact C5.
    + intros x. rewrite S3, S7, N3, F4. apply C6.
  - (* drop *)
    right. exists p, rest. destruct rest as [|r rest]; [congruence|].
    destruct s as [st0 apo0 sp0 par0 sqr0 pri0 kids0 sid0 regd0 gid0 fin0 procs0].
    assert (OF : forall ph, outstanding ph tr = if holds_for (Sq st0 apo0 sp0 par0 sqr0 pri0 kids0 sid0 regd0 gid0 fin0 procs0) ph then 1%Z else 0%Z).
    { assert (R0 : has is_raise ([ADrop; ASet FINISHED; AEvent] :: r :: rest) = false).
      { rewrite has_cons. exact X1. }
      unfold ofacts in C4. rewrite R0 in C4. cbn in C4. apply C4. }
    unfold holds_for in OF. cbn [acts act fst snd apo sp] in *.
    unfold in_call. destruct (truthy (g_val apo0)) eqn:T; cbn [acts act fst snd app setp] in *.
    + split; [apply GO|]. split; [discriminate|]. split; [exact CS|]. split; [left; cbn [procs]; rewrite upd_eq; do 2 eexists; split; [reflexivity|auto]|]. split; [|split].
      * unfold ofacts. rewrite X1, X2. intros ph. rewrite outstanding_app, OF. cbn [andb app].
        destruct (g_val sp0) as [y|]; cbn; [|reflexivity]. destruct (Nat.eqb ph y); reflexivity.
      * intros i. cbn [regd sqr sid]. rewrite X3. specialize (C5 i). rewrite has_cons in C5. cbn [existsb is_exit orb regd sqr sid] in C5.
        rewrite X3 in C5. exact C5.
      * exact C6.
    + split; [apply GO|]. split; [discriminate|]. split; [exact CS|]. split; [left; cbn [procs]; rewrite upd_eq; do 2 eexists; split; [reflexivity|auto]|]. split; [|split].
      * unfold ofacts. rewrite X1, X2. intros ph. rewrite outstanding_app, OF. reflexivity.
      * intros i. cbn [regd sqr sid]. rewrite X3. specialize (C5 i). rewrite has_cons in C5. cbn [existsb is_exit orb regd sqr sid] in C5.
        rewrite X3 in C5. exact C5.
      * exact C6.
  - (* exit *)
    right. exists p, rest. destruct rest as [|r rest]; [congruence|].
    destruct s as [st0 apo0 sp0 par0 sqr0 pri0 kids0 sid0 regd0 gid0 fin0 procs0].
    assert (OF : forall ph, outstanding ph tr = 0%Z).
    { assert (R0 : has is_raise ([AExit] :: r :: rest) = false) by exact X1. assert (R1 : has is_drop ([AExit] :: r :: rest) = false) by exact X2.
      unfold ofacts in C4. rewrite R0, R1 in C4. exact C4. }
    cbn [acts act fst snd app setp] in *. rewrite app_nil_r. unfold in_call.
    split; [apply GO|]. split; [discriminate|]. split; [exact CS|]. split; [left; cbn [procs]; rewrite upd_eq; do 2 eexists; split; [reflexivity|auto]|]. split; [|split].
    + unfold ofacts. rewrite X1, X2. exact OF.
    + intros i. cbn [regd sqr sid]. rewrite X3. split; [|intros (X & _); discriminate]. specialize (C5 i). cbn [regd sqr sid] in C5.
      intros H. exfalso. destruct sqr0; [|apply C5 in H; destruct H as (_ & X & _); discriminate].
      destruct sid0 as [j|]; [|apply C5 in H; destruct H as (_ & _ & X); discriminate].
      unfold upd in H. destruct (Nat.eqb_spec i j) as [->|N]; [discriminate|]. apply C5 in H. destruct H as (_ & _ & X). congruence.
    + exact C6.
  - (* last *)
    left. destruct s as [st0 apo0 sp0 par0 sqr0 pri0 kids0 sid0 regd0 gid0 fin0 procs0].
    cbn [acts act fst snd app setp] in *. split.
    + intros p'. destruct (Nat.eq_dec p' p) as [->|N]; [right; cbn [procs]; apply upd_eq|now apply GO].
    + split; [|split].
      * intros ph. rewrite outstanding_app. cbn. rewrite Z.add_0_r. apply C4.
      * intros i. cbn [regd]. specialize (C5 i). cbn [regd] in C5. destruct (regd0 i); [|reflexivity]. destruct (proj1 C5 eq_refl) as (X & _). discriminate.
      * intros x. cbn [kids]. specialize (C6 x). cbn [kids par] in C6. destruct par0 as [y|].
        -- unfold upd. destruct (Nat.eqb_spec x y) as [->|N]; [reflexivity|]. destruct (kids0 x); [|reflexivity]. pose proof (proj1 C6 eq_refl). congruence.
        -- destruct (kids0 x); [|reflexivity]. pose proof (proj1 C6 eq_refl). congruence.
Qed.
Lemma calm_step s l tr : good s -> calm s tr ->
  match l with LStart _ _ _ z _ => (-1 <= z)%Z /\ forall p, gone s p | _ => True end ->
  calm (fst (step s l)) (tr ++ snd (step s l)).
Proof.
  intros G HC HL.
  assert (SAME : calm s (tr ++ [])) by now rewrite app_nil_r.
  destruct l as [p q b z c|p|p|ph| |v| |m|].
  - destruct HL as [HZ HG]. cbn [SeqLifeModel.step]. destruct (HG p) as [X|X]; rewrite X; [|exact SAME].
    right. exists p, (segs (given q) c). apply calm_start; auto.
    destruct HC as [[_ R]|(p' & rest & _ & _ & _ & [(q' & a & Y & _)|[Y _]] & _)]; [exact R| |]; destruct (HG p') as [Z|Z]; congruence.
  - destruct (procs s p) as [|rest q a| |] eqn:EP; try (cbn [SeqLifeModel.step]; rewrite EP; exact SAME).
    destruct rest as [|l rest]; [cbn [SeqLifeModel.step]; rewrite EP; exact SAME|].
    destruct HC as [[HG _]|(p' & rest' & HI)]; [destruct (HG p) as [Z|Z]; congruence|].
    assert (p' = p) as ->.
    { destruct (Nat.eq_dec p' p) as [|N]; [assumption|]. destruct HI as (C1 & _). destruct (C1 p ltac:(congruence)) as [Z|Z]; congruence. }
    assert (rest' = l :: rest) as ->.
    { destruct HI as (_ & _ & _ & [(q' & a' & Y & _)|[Y _]] & _); congruence. }
    eapply calm_run; eassumption.
  - cbn [SeqLifeModel.step]. destruct (procs s p) as [|rest q a| |] eqn:EP; try exact SAME. destruct a as [h|]; [|exact SAME].
    destruct HC as [[HG _]|(p' & rest' & C1 & C2 & CS & C3 & C4 & C5 & C6)]; [destruct (HG p) as [Z|Z]; congruence|].
    assert (p' = p) as -> by (destruct (Nat.eq_dec p' p) as [|N]; [assumption|]; destruct (C1 p ltac:(congruence)) as [Z|Z]; congruence).
    right. exists p, rest'. destruct s as [st0 apo0 sp0 par0 sqr0 pri0 kids0 sid0 regd0 gid0 fin0 procs0]. cbn [fst snd setp]. unfold in_call. cbn [procs] in *.
    split; [intros p' N; unfold gone; cbn [procs]; rewrite upd_neq by exact N; now apply C1|]. split; [exact C2|]. split; [exact CS|].
    split; [right; split; [apply upd_eq|]; destruct C3 as [(q' & a' & Y & Z)|[Y _]]; [|congruence]; assert (rest' = rest /\ a' = Some h) as [-> ->] by (split; congruence);
      split; [apply Z; discriminate|exact (proj2 (g_suffix _ G p rest q (Some h) EP) ltac:(discriminate))]|]. split; [|split; [exact C5|exact C6]].
    unfold ofacts in *. assert (OP : forall ph, outstanding ph (tr ++ [OThrown p]) = outstanding ph tr) by (intros; rewrite outstanding_app; cbn; lia).
    destruct (has is_raise rest'); [intros; rewrite OP; apply C4|]. destruct (has is_drop rest'); [|intros; rewrite OP; apply C4].
    destruct C4 as (L1 & L2 & L3). split; [exact L1|]. split; [exact L2|]. intros. rewrite OP. apply L3.
  - destruct s as [st0 apo0 sp0 par0 sqr0 pri0 kids0 sid0 regd0 gid0 fin0 procs0].
    eapply calm_outside; [..|exact HC]; cbn; try reflexivity; [intros; destruct (g_locked sp0); reflexivity|auto|intros LK; rewrite LK; cbn; auto].
  - destruct s as [st0 apo0 sp0 par0 sqr0 pri0 kids0 sid0 regd0 gid0 fin0 procs0].
    eapply calm_outside; [..|exact HC]; cbn; try reflexivity; auto.
  - destruct s as [st0 apo0 sp0 par0 sqr0 pri0 kids0 sid0 regd0 gid0 fin0 procs0].
    eapply calm_outside; [..|exact HC]; cbn; try reflexivity; [intros; destruct (g_locked apo0); reflexivity|intros LK; rewrite LK; cbn; auto|auto].
  - destruct s as [st0 apo0 sp0 par0 sqr0 pri0 kids0 sid0 regd0 gid0 fin0 procs0].
    eapply calm_outside; [..|exact HC]; cbn; try reflexivity; auto.
  - eapply calm_outside; [..|exact HC]; cbn; try reflexivity; auto.
    intros. destruct (_ && _); [destruct (fin s)|]; reflexivity.
  - destruct s as [st0 apo0 sp0 par0 sqr0 pri0 kids0 sid0 regd0 gid0 fin0 procs0].
    eapply calm_outside; [..|exact HC]; cbn; try reflexivity; auto.
Qed.
Lemma calm_life ls : one_at_a_time ppri psqr sq0 ls -> calm (fst (life ls)) (snd (life ls)).
Proof.
  intros H. unfold SeqLifeModel.life. change (snd (run_machine step sq0 ls)) with ([] ++ snd (run_machine step sq0 ls)).
  assert (C0 : calm sq0 []) by (left; split; [intros p; now left|]; split; [reflexivity|]; split; reflexivity).
  pose proof good0 as G0. revert G0 C0 H. generalize sq0 as s. generalize (@nil out) as tr.
  induction ls as [|l ls IH]; intros tr s G0 C0 H; cbn [run_machine].
  - cbn [fst snd]. now rewrite app_nil_r.
  - cbn [one_at_a_time] in H. destruct H as [H1 H2]. pose proof (calm_step s l tr G0 C0 H1) as C1. pose proof (good_step ppri psqr s l G0) as G1.
    destruct (step s l) as [s1 o1]. cbn [fst snd] in *. specialize (IH _ s1 G1 C1 H2).
    destruct (run_machine step s1 ls) as [s2 o2]. cbn [fst snd] in *. now rewrite app_assoc.
Qed.
End Calm.
