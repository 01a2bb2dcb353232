(** Property C210: waiting for objections. *)
From Coq Require Import List Bool Arith Lia.
From Verif Require Import Prelude WfoModel WfoSpec.
Import ListNotations.

Definition ins (x : proc) (o : nat) : bool := match x with PWait o' _ | PReady o' _ => o' =? o | _ => false end.
(** [l] contains the processes inside a call for [o] *)
Record inv (s : ws) : Prop := Inv {
  i_wait : forall p o k, pr s p = PWait o k -> exists e, ev s o = Some e /\ is_set e k = false;
  i_in : forall o (l : list nat), NoDup l -> (forall p, In p l -> ins (pr s p) o = true) ->
    l = [] \/ exists e, ev s o = Some e /\ length l <= waiters e
}.
Lemma inv_init : inv init.
Proof.
  constructor; [discriminate|]. intros o [|p l] N H; [now left|]. exfalso. specialize (H p (or_introl eq_refl)). discriminate.
Qed.
Lemma without p (l : list nat) : NoDup l -> exists l', NoDup l' /\ ~ In p l' /\ incl l' l /\ (forall x, In x l -> x = p \/ In x l') /\ length l <= S (length l').
Proof.
  intros N. destruct (in_dec Nat.eq_dec p l) as [I|I].
  - apply in_split in I as (a & b & ->). exists (a ++ b). pose proof (NoDup_remove_1 _ _ _ N). pose proof (NoDup_remove_2 _ _ _ N).
    repeat split; auto.
    + intros x X. apply in_app_or in X. apply in_or_app. cbn. tauto.
    + intros x X. apply in_app_or in X. cbn in X. rewrite in_app_iff. intuition auto.
    + rewrite !app_length. cbn. lia.
  - exists l. repeat split; auto. intros x X; exact X.
Qed.
Lemma inv_step s l : inv s -> inv (fst (step s l)).
Proof.
  intros H. pose proof H as [H1 H2]. destruct l as [p o k|o k|p|p]; cbn [step].
  - destruct (pr s p) eqn:E; try exact H. cbn [fst]. unfold enter. set (e := match ev s o with Some e => e | None => new_events end).
    constructor; cbn [ev pr].
    + intros q o' k' Q. destruct (Nat.eq_dec q p) as [->|N].
      * rewrite upd_eq in Q. cbn [is_set] in Q. destruct (is_set e k) eqn:Z; [discriminate|]. injection Q as -> ->.
        rewrite upd_eq. eexists. split; [reflexivity|]. exact Z.
      * rewrite upd_neq in Q by auto. destruct (H1 _ _ _ Q) as (e' & E' & Z). destruct (Nat.eq_dec o' o) as [->|No].
        { rewrite upd_eq. eexists. split; [reflexivity|]. cbn [is_set]. unfold e. now rewrite E'. }
        rewrite upd_neq by auto. eauto.
    + intros o' l N Hl. destruct (Nat.eq_dec o' o) as [->|No].
      * right. rewrite upd_eq. eexists. split; [reflexivity|]. cbn [waiters].
        destruct (without p l N) as (l' & N' & NI & I & _ & L).
        destruct (H2 o l' N') as [->|(e' & E' & W)].
        { intros q Q. specialize (Hl q (I _ Q)). rewrite upd_neq in Hl; auto. intros ->. tauto. }
        { cbn in L. lia. }
        unfold e. rewrite E'. lia.
      * rewrite upd_neq by auto. apply H2; auto. intros q Q. specialize (Hl q Q). destruct (Nat.eq_dec q p) as [->|Nq].
        { rewrite upd_eq in Hl. exfalso. destruct (is_set _ k); cbn in Hl; apply Nat.eqb_eq in Hl; congruence. }
        now rewrite upd_neq in Hl.
  - cbn [fst]. unfold fire. destruct (ev s o) as [e|] eqn:E; [|exact H]. constructor; cbn [ev pr].
    + intros q o' k' Q. destruct (pr s q) as [|o2 k2|o2 k2|] eqn:P; try discriminate.
      destruct ((o2 =? o) && (if kind_dec k2 k then true else false)) eqn:B; [discriminate|]. injection Q as -> ->.
      destruct (H1 _ _ _ P) as (e' & E' & Z). destruct (Nat.eqb_spec o' o) as [->|No].
      * rewrite upd_eq. eexists. split; [reflexivity|]. cbn [is_set]. cbn in B. destruct (kind_dec k' k); [discriminate|]. congruence.
      * rewrite upd_neq by auto. eauto.
    + intros o' l N Hl. assert (Hl' : forall q, In q l -> ins (pr s q) o' = true).
      { intros q Q. specialize (Hl q Q). destruct (pr s q) as [|o2 k2|o2 k2|]; auto. destruct (_ && _); exact Hl. }
      destruct (H2 o' l N Hl') as [->|(e' & E' & W)]; [now left|]. right. destruct (Nat.eq_dec o' o) as [->|No].
      * rewrite upd_eq. eexists. split; [reflexivity|]. cbn [waiters]. congruence.
      * rewrite upd_neq by auto. eauto.
  - destruct (pr s p) as [|o k|o k|] eqn:E; try exact H. unfold leave. destruct (ev s o) as [e|] eqn:Ee; cbn [fst].
    2:{ exfalso. destruct (H2 o [p]) as [X|(e' & E' & _)]; try congruence; [repeat constructor; auto|]. intros q [<-|[]]. rewrite E. cbn. apply Nat.eqb_refl. }
    assert (G : forall o' l, NoDup l -> (forall q, In q l -> ins (upd (pr s) p PFree q) o' = true) -> (forall q, In q l -> ins (pr s q) o' = true) /\ ~ In p l).
    { intros o' l N Hl. split.
      - intros q Q. specialize (Hl q Q). destruct (Nat.eq_dec q p) as [->|Nq]; [rewrite upd_eq in Hl; discriminate|now rewrite upd_neq in Hl].
      - intros I. specialize (Hl p I). rewrite upd_eq in Hl. discriminate. }
    assert (M : forall l, NoDup l -> (forall q, In q l -> ins (upd (pr s) p PFree q) o = true) -> length l <= waiters e - 1).
    { intros l N Hl. destruct (G _ _ N Hl) as [G1 G2]. destruct (H2 o (p :: l)) as [X|(e' & E' & W)]; try discriminate.
      - now constructor.
      - intros q [<-|Q]; [rewrite E; cbn; apply Nat.eqb_refl|auto].
      - rewrite Ee in E'. injection E' as <-. cbn in W. lia. }
    constructor; cbn [ev pr].
    + intros q o' k' Q. destruct (Nat.eq_dec q p) as [->|Nq]; [rewrite upd_eq in Q; discriminate|].
      pose proof Q as Q0. rewrite upd_neq in Q by auto. destruct (H1 _ _ _ Q) as (e' & E' & Z). destruct (Nat.eq_dec o' o) as [->|No].
      * rewrite upd_eq. assert (length [q] <= waiters e - 1) as L.
        { apply M; [repeat constructor; auto|]. intros q' [<-|[]]. rewrite Q0. cbn. apply Nat.eqb_refl. }
        cbn in L. destruct (Nat.eqb_spec (waiters e - 1) 0); [lia|]. eexists. split; [reflexivity|]. cbn [is_set]. congruence.
      * rewrite upd_neq by auto. eauto.
    + intros o' l N Hl. destruct (Nat.eq_dec o' o) as [->|No].
      * rewrite upd_eq. specialize (M l N Hl). destruct (Nat.eqb_spec (waiters e - 1) 0) as [Z|Z].
        { left. destruct l; auto. cbn in M. lia. }
        right. eexists. split; [reflexivity|exact M].
      * rewrite upd_neq by auto. apply H2; auto. now apply G.
  - cbn [fst]. constructor; cbn [ev pr].
    + intros q o' k' Q. destruct (Nat.eq_dec q p) as [->|Nq]; [rewrite upd_eq in Q; discriminate|]. rewrite upd_neq in Q by auto. eauto.
    + intros o' l N Hl. apply H2; auto. intros q Q. specialize (Hl q Q). destruct (Nat.eq_dec q p) as [->|Nq]; [rewrite upd_eq in Hl; discriminate|now rewrite upd_neq in Hl].
Qed.
Lemma run_snoc ls l : fst (run (ls ++ [l])) = fst (step (fst (run ls)) l) /\ snd (run (ls ++ [l])) = snd (run ls) ++ snd (step (fst (run ls)) l).
Proof.
  unfold run. rewrite run_machine_app. destruct (run_machine step init ls) as [s o]. cbn [fst snd run_machine].
  destruct (step s l) as [s1 o1]. cbn [fst snd]. now rewrite app_nil_r.
Qed.

Lemma inv_run ls : inv (fst (run ls)).
Proof.
  induction ls as [|l ls IH] using rev_ind; [exact inv_init|]. rewrite (proj1 (run_snoc ls l)). now apply inv_step.
Qed.

(** No KeyError, whatever the interleaving: a process that resumes returns. *)
Theorem C210_no_exception : forall ls p, ~ In (OKeyError p) (snd (run ls)).
Proof.
  intros ls p. induction ls as [|l ls IH] using rev_ind; [now intros []|]. rewrite (proj2 (run_snoc ls l)), in_app_iff.
  intros [I|I]; [tauto|]. pose proof (inv_run ls) as [_ H2]. destruct l as [q o k|o k|q|q]; cbn [step] in I.
  - destruct (pr _ q); destruct I.
  - destruct I.
  - destruct (pr (fst (run ls)) q) as [|o k|o k|] eqn:E; try destruct I. unfold leave in I.
    destruct (ev (fst (run ls)) o) eqn:Ee; [destruct I as [I|[]]; discriminate|].
    destruct (H2 o [q]) as [X|(e' & E' & _)]; try congruence; [repeat constructor; auto|]. intros x [<-|[]]. rewrite E. cbn. apply Nat.eqb_refl.
  - destruct I.
Qed.
Print Assumptions C210_no_exception.

(** How one call goes on while the process itself is left alone. *)
Lemma call_on s p o k l : alone p l -> pr s p = PWait o k \/ pr s p = PReady o k -> inv s ->
  (pr (fst (step s l)) p = PWait o k \/ pr (fst (step s l)) p = PReady o k) /\
  (pr s p = PReady o k -> pr (fst (step s l)) p = PReady o k) /\
  (l = LFire o k -> pr (fst (step s l)) p = PReady o k) /\
  (pr s p = PWait o k -> l <> LFire o k -> pr (fst (step s l)) p = PWait o k).
Proof.
  intros [A1 A2] Hp [H1 H2]. destruct l as [q o' k'|o' k'|q|q]; cbn [step].
  - destruct (pr s q) eqn:E; cbn [fst]; try (now intuition discriminate).
    assert (q <> p) by (intros ->; intuition congruence). unfold enter. cbn [pr]. rewrite upd_neq by auto. intuition discriminate.
  - cbn [fst]. unfold fire. destruct (ev s o') as [e|] eqn:E.
    + cbn [pr]. destruct Hp as [Hp|Hp]; rewrite Hp.
      * destruct (Nat.eqb_spec o o') as [->|N], (kind_dec k k') as [->|M]; cbn [andb]; intuition congruence.
      * intuition congruence.
    + destruct Hp as [Hp|Hp].
      * destruct (H1 _ _ _ Hp) as (e & E' & _). assert (o <> o') by congruence. intuition congruence.
      * intuition congruence.
  - assert (q <> p) by (intros ->; now apply A1). destruct (pr s q) as [|o2 k2|o2 k2|]; cbn [fst]; try (now intuition discriminate).
    unfold leave. destruct (ev s o2); cbn [fst pr]; rewrite upd_neq by auto; intuition discriminate.
  - assert (q <> p) by (intros ->; now apply A2). cbn [fst pr]. rewrite upd_neq by auto. intuition discriminate.
Qed.
Lemma after_call a p o k b : pr (fst (run a)) p = PFree -> Forall (alone p) b ->
  let x := pr (fst (run (a ++ LWait p o k :: b))) p in
  (x = PWait o k \/ x = PReady o k) /\ (In (LFire o k) b -> x = PReady o k) /\
  (pr (fst (run (a ++ [LWait p o k]))) p = PWait o k -> ~ In (LFire o k) b -> x = PWait o k).
Proof.
  intros F. induction b as [|l b IH] using rev_ind; intros A; cbn zeta.
  - split; [|split; [intros []|auto]]. rewrite (proj1 (run_snoc a (LWait p o k))). cbn [step]. rewrite F. cbn [fst]. unfold enter. cbn [pr]. rewrite upd_eq.
    destruct (is_set _ k); auto.
  - apply Forall_app in A as [A B]. inversion B as [|? ? B' _]; subst. destruct (IH A) as (I1 & I2 & I3).
    assert (E : a ++ LWait p o k :: b ++ [l] = (a ++ LWait p o k :: b) ++ [l]) by (now rewrite <- app_assoc).
    rewrite E, (proj1 (run_snoc _ l)). destruct (call_on _ p o k l B' I1 (inv_run _)) as (C1 & C2 & C3 & C4).
    split; [exact C1|]. split.
    + intros I. apply in_app_or in I as [I|[I|[]]]; auto.
    + intros W N. rewrite in_app_iff in N. apply C4; [apply I3; tauto|]. intros ->. apply N. right. now left.
Qed.

(** C210. No event is missed: if the event reaches the object after the call, the process
    goes on with its next turn, and returns. *)
Theorem C210_woken : forall a p o k b, pr (fst (run a)) p = PFree -> Forall (alone p) b -> In (LFire o k) b ->
  snd (step (fst (run (a ++ LWait p o k :: b))) (LRun p)) = [OReturn p].
Proof.
  intros a p o k b F A I. destruct (after_call a p o k b F A) as (_ & W & _). specialize (W I). cbn [step]. rewrite W.
  unfold leave. pose proof (inv_run (a ++ LWait p o k :: b)) as [_ H2].
  destruct (H2 o [p]) as [X|(e & E & _)]; [repeat constructor; auto|intros q [<-|[]]; rewrite W; cbn; apply Nat.eqb_refl|discriminate|].
  now rewrite E.
Qed.
Print Assumptions C210_woken.

(** Without kills there is an entry only while some process is inside. *)
Record inv2 (s : ws) : Prop := Inv2 {
  j_cnt : forall o e, ev s o = Some e -> exists l, NoDup l /\ length l = waiters e /\ 0 < waiters e /\ forall p, In p l -> ins (pr s p) o = true
}.
Lemma inv2_step s l : no_kill l -> inv s -> inv2 s -> inv2 (fst (step s l)).
Proof.
  intros K HI H. pose proof H as [J]. destruct l as [p o k|o k|p|p]; cbn [step]; [| | |now destruct K].
  - destruct (pr s p) eqn:E; try exact H. cbn [fst]. unfold enter. constructor. cbn [ev pr]. intros o' e' E'.
    destruct (Nat.eq_dec o' o) as [->|No].
    + rewrite upd_eq in E'. injection E' as <-. cbn [waiters].
      assert (X : exists l, NoDup l /\ length l = waiters (match ev s o with Some e => e | None => new_events end) /\ forall p, In p l -> ins (pr s p) o = true).
      { destruct (ev s o) as [e|] eqn:Ee; [destruct (J _ _ Ee) as (l & A & B & _ & C); eauto|]. exists []. repeat split; [constructor|]. intros q []. }
      destruct X as (l & N & L & I). exists (p :: l). assert (NI : ~ In p l) by (intros X; specialize (I p X); now rewrite E in I).
      split; [now constructor|]. split; [cbn; lia|]. split; [lia|]. intros q [<-|Q].
      * rewrite upd_eq. destruct (is_set _ k); cbn; apply Nat.eqb_refl.
      * rewrite upd_neq; auto. intros ->. tauto.
    + rewrite upd_neq in E' by auto. destruct (J _ _ E') as (l & N & L & W & I). exists l. repeat split; auto.
      intros q Q. rewrite upd_neq; auto. intros ->. specialize (I _ Q). now rewrite E in I.
  - cbn [fst]. unfold fire. destruct (ev s o) as [e|] eqn:Ee; [|exact H]. constructor. cbn [ev pr]. intros o' e' E'.
    assert (X : exists l, NoDup l /\ length l = waiters e' /\ 0 < waiters e' /\ forall p, In p l -> ins (pr s p) o' = true).
    { destruct (Nat.eq_dec o' o) as [->|No].
      - rewrite upd_eq in E'. injection E' as <-. exact (J _ _ Ee).
      - rewrite upd_neq in E' by auto. exact (J _ _ E'). }
    destruct X as (l & N & L & W & I). exists l. repeat split; auto. intros q Q. specialize (I q Q).
    destruct (pr s q) as [|o2 k2|o2 k2|]; auto. destruct (_ && _); exact I.
  - destruct (pr s p) as [|o k|o k|] eqn:E; try exact H. unfold leave. destruct (ev s o) as [e|] eqn:Ee; cbn [fst].
    + constructor. cbn [ev pr]. intros o' e' E'. destruct (Nat.eq_dec o' o) as [->|No].
      * rewrite upd_eq in E'. destruct (Nat.eqb_spec (waiters e - 1) 0) as [|Z]; [discriminate|]. injection E' as <-. cbn [waiters].
        destruct (J _ _ Ee) as (l & N & L & W & I). destruct (in_dec Nat.eq_dec p l) as [Ip|Ip].
        { apply in_split in Ip as (x & y & ->). exists (x ++ y). split; [eapply NoDup_remove_1; eauto|]. rewrite app_length in *. cbn in L.
          split; [lia|]. split; [lia|]. intros q Q. rewrite upd_neq.
          - apply I. apply in_app_or in Q. apply in_or_app. cbn. tauto.
          - intros ->. now apply (NoDup_remove_2 _ _ _ N). }
        exfalso. destruct HI as [_ H2]. destruct (H2 o (p :: l)) as [X|(e' & E' & W')]; try discriminate.
        { now constructor. }
        { intros q [<-|Q]; [rewrite E; cbn; apply Nat.eqb_refl|auto]. }
        rewrite Ee in E'. injection E' as <-. cbn in W'. lia.
      * rewrite upd_neq in E' by auto. destruct (J _ _ E') as (l & N & L & W & I). exists l. repeat split; auto.
        intros q Q. rewrite upd_neq; auto. intros ->. specialize (I _ Q). rewrite E in I. cbn in I. apply Nat.eqb_eq in I. congruence.
    + constructor. cbn [ev pr]. intros o' e' E'. destruct (J _ _ E') as (l & N & L & W & I). exists l. repeat split; auto.
      intros q Q. rewrite upd_neq; auto. intros ->. specialize (I _ Q). rewrite E in I. cbn in I. apply Nat.eqb_eq in I. congruence.
Qed.
Lemma inv2_run ls : Forall no_kill ls -> inv2 (fst (run ls)).
Proof.
  induction ls as [|l ls IH] using rev_ind; intros F.
  - constructor. discriminate.
  - apply Forall_app in F as [F G]. inversion G; subst. rewrite (proj1 (run_snoc ls l)). apply inv2_step; auto. apply inv_run.
Qed.

(** If no process was killed before and no other one is waiting for this object, the call
    returns only after an event of its kind that comes after the call. *)
Theorem C210_not_early : forall a p o k b, Forall no_kill a -> pr (fst (run a)) p = PFree ->
  (forall q, ~ inside (pr (fst (run a)) q) o) -> Forall (alone p) b -> ~ In (LFire o k) b ->
  step (fst (run (a ++ LWait p o k :: b))) (LRun p) = (fst (run (a ++ LWait p o k :: b)), []).
Proof.
  intros a p o k b NK F Q A N. destruct (after_call a p o k b F A) as (_ & _ & W). cbn [step].
  rewrite W; auto. rewrite (proj1 (run_snoc a (LWait p o k))). cbn [step]. rewrite F. cbn [fst]. unfold enter. cbn [pr]. rewrite upd_eq.
  destruct (ev (fst (run a)) o) as [e|] eqn:E; [|reflexivity]. exfalso.
  destruct (inv2_run a NK) as [J]. destruct (J _ _ E) as (l & _ & L & P & I). destruct l as [|q l]; [cbn in L; lia|].
  apply (Q q). specialize (I q (or_introl eq_refl)). destruct (pr (fst (run a)) q) as [|o2 k2|o2 k2|]; try discriminate; cbn in I; apply Nat.eqb_eq in I; subst; eexists; eauto.
Qed.
Print Assumptions C210_not_early.

(** An object nobody waits for remembers nothing (without kills). *)
Theorem C210_forgets : forall a o, Forall no_kill a -> (forall q, ~ inside (pr (fst (run a)) q) o) -> ev (fst (run a)) o = None.
Proof.
  intros a o NK Q. destruct (ev (fst (run a)) o) as [e|] eqn:E; auto. exfalso.
  destruct (inv2_run a NK) as [J]. destruct (J _ _ E) as (l & _ & L & P & I). destruct l as [|q l]; [cbn in L; lia|].
  apply (Q q). specialize (I q (or_introl eq_refl)). destruct (pr (fst (run a)) q) as [|o2 k2|o2 k2|]; try discriminate; cbn in I; apply Nat.eqb_eq in I; subst; eexists; eauto.
Qed.
Print Assumptions C210_forgets.

(** Both conditions are needed. While process 0 waits for the end of the objections, process
    1 asks for the next raise and gets an old one. *)
Theorem C210_other_limit :
  snd (run [LWait 0 5 KAll; LFire 5 KRaised; LWait 1 5 KRaised; LRun 1]) = [OReturn 1].
Proof. vm_compute. reflexivity. Qed.
Print Assumptions C210_other_limit.
(** After a waiting process was killed, every later call for this object and event that has
    happened once returns at once, for ever. *)
Theorem C210_kill_limit : forall n,
  snd (run ([LWait 0 5 KAll; LFire 5 KAll; LKill 0] ++ List.concat (repeat [LWait 1 5 KAll; LRun 1] n))) = repeat (OReturn 1) n.
Proof.
  intros n. set (s := fst (run [LWait 0 5 KAll; LFire 5 KAll; LKill 0])).
  assert (G : forall n (s : ws), (exists e, ev s 5 = Some e /\ waiters e = 1 /\ is_set e KAll = true) -> pr s 1 = PFree ->
    snd (run_machine step s (List.concat (repeat [LWait 1 5 KAll; LRun 1] n))) = repeat (OReturn 1) n).
  { clear. induction n as [|n IH]; intros s (e & E & W & Z) P; [reflexivity|].
    cbn [repeat List.concat app run_machine step]. rewrite P. unfold enter. rewrite E. cbn [is_set pr ev]. rewrite Z, upd_eq.
    unfold leave. cbn [ev]. rewrite upd_eq. cbn [waiters]. rewrite W. cbn [Nat.sub Nat.eqb is_set pr].
    match goal with |- context [run_machine step ?s' _] => specialize (IH s') end. destruct (run_machine step _ _) as [s2 o2] eqn:R.
    cbn [snd app] in *. f_equal. apply IH; cbn [ev pr].
    - rewrite upd_eq. eexists. split; [reflexivity|]. now split.
    - now rewrite upd_eq. }
  unfold run. rewrite run_machine_app. change (run_machine step init [LWait 0 5 KAll; LFire 5 KAll; LKill 0]) with (run [LWait 0 5 KAll; LFire 5 KAll; LKill 0]).
  specialize (G n s). unfold s in G. destruct (run [LWait 0 5 KAll; LFire 5 KAll; LKill 0]) as [s0 o0] eqn:R.
  assert (o0 = []) as -> by (vm_compute in R; congruence). cbn [fst] in G.
  cbn [fst snd app]. apply G.
  - unfold run in R. apply (f_equal fst) in R. cbn [fst] in R. rewrite <- R. eexists. split; [vm_compute; reflexivity|]. now split.
  - apply (f_equal fst) in R. cbn [fst] in R. now rewrite <- R.
Qed.
Print Assumptions C210_kill_limit.

Example C210_example :
  snd (run [LWait 0 5 KAll; LWait 1 5 KRaised; LRun 0; LRun 1; LFire 5 KRaised; LRun 1; LRun 0; LFire 5 KAll; LRun 0; LWait 1 5 KAll; LRun 1]) = [OReturn 1; OReturn 0].
Proof. vm_compute. reflexivity. Qed.
