(** C53, C54, C90-C92: events. *)
From Coq Require Import ZArith List Bool Arith Lia.
From Verif Require Import Prelude EventModel EventSpec EventProofs.
Import ListNotations.
Local Open Scope nat_scope.

(** ** C53 *)
Theorem C53_is_on ls : Forall no_callbacks ls -> on (after ls) = spec_on ls.
Proof. exact (on_spec ls). Qed.
Print Assumptions C53_is_on.

(** While the event is on, wait_on returns at the next turn, whether it was called
    before or after the trigger, whatever happened in between. *)
Theorem C53_wait_on ls p delta ls2 :
  Forall no_callbacks (ls ++ LWaitOn p delta :: ls2) -> is_free ls p -> Forall (not_run p) ls2 ->
  spec_on (ls ++ LWaitOn p delta :: ls2) = true ->
  returns (ls ++ LWaitOn p delta :: ls2) p.
Proof.
  intros HC HF HN HO. rewrite <- on_spec in HO by assumption.
  assert (HW : waits_on (ps (after (ls ++ LWaitOn p delta :: ls2)) p)).
  { replace (ls ++ LWaitOn p delta :: ls2) with ((ls ++ [LWaitOn p delta]) ++ ls2) by now rewrite <- app_assoc.
    rewrite after_app. apply (run_pres waits_on p (fun y l => waits_on_step y l p)); [assumption|].
    rewrite after_snoc. cbn [step]. unfold is_free in HF. rewrite HF.
    destruct (on (after ls)); cbn [fst]; unfold set_p; evq; rewrite upd_eq; [left|right; eexists]; reflexivity. }
  pose proof (inv_after (ls ++ LWaitOn p delta :: ls2)) as HI. unfold returns.
  set (y := after _) in *. destruct HW as [HW|[g HW]]; cbn [step]; rewrite HW; [reflexivity|].
  destruct g; [rewrite HO; reflexivity|]. apply (I_on _ HI) in HW. congruence.
Qed.
Print Assumptions C53_wait_on.

(** A process in wait_trigger or wait_ptrigger is woken by a trigger, and by a reset
    with wakeup, if there was no reset since it called. Partial: with a reset without
    wakeup in between it is not, see below. *)
Theorem C53_trigger_wakes ls p c ls2 l ls3 :
  Forall no_callbacks (ls ++ c :: ls2 ++ l :: ls3) -> is_free ls p ->
  c = LWaitTrigger p \/ c = LWaitPtrigger p /\ ~ is_free (ls ++ [c]) p ->
  Forall (not_run p) (ls2 ++ l :: ls3) -> Forall no_reset ls2 ->
  (exists d pre, l = LTrigger d pre) \/ l = LReset true ->
  returns (ls ++ c :: ls2 ++ l :: ls3) p.
Proof.
  intros HC HF Hc HN HR Hl.
  assert (HW : waits_cur (after (ls ++ [c])) p).
  { unfold is_free in *. rewrite after_snoc in *. unfold waits_cur.
    destruct Hc as [->|[-> Hf]]; cbn [step] in *; rewrite HF in *.
    - unfold set_p; evq. rewrite upd_eq. destruct (fired _ _); auto.
    - destruct (fired _ _); [contradiction|]. unfold set_p; evq. rewrite upd_eq. auto. }
  apply Forall_app in HN as [HN2 HN3]. inversion HN3 as [|? ? HNl HN3']; subst.
  apply (waits_cur_run p ls2) in HW; auto. rewrite <- after_app in HW.
  assert (HT : ps (after (((ls ++ [c]) ++ ls2) ++ [l])) p = TrigGo).
  { rewrite after_snoc. apply waits_cur_wake; auto. apply cbs_nil.
    rewrite !Forall_app in *. destruct HC as [HC1 HC2]. inversion HC2 as [|? ? Hx Hy]; subst.
    apply Forall_app in Hy as [Hy _]. repeat split; auto. }
  apply (run_pres (fun s => s = TrigGo) p (fun y l => triggo_step y l p) ls3) in HT; [|assumption].
  rewrite <- after_app, <- !app_assoc in HT. cbn [app] in HT.
  unfold returns. cbn [step]. rewrite HT. reflexivity.
Qed.
Print Assumptions C53_trigger_wakes.

(** After a reset without wakeup, every process that was in wait_trigger stays there
    for ever: no later trigger, reset or anything else makes its call return. *)
Theorem C53_reset_loses_waiters ls p ls2 :
  is_free ls p -> Forall (not_run p) ls2 -> Forall no_reset ls2 ->
  ~ returns (ls ++ LWaitTrigger p :: ls2) p ->
  never_returns (ls ++ LWaitTrigger p :: ls2 ++ [LReset false]) p.
Proof.
  intros HF HN HR HB more.
  assert (HW : waits_cur (after (ls ++ [LWaitTrigger p])) p).
  { rewrite after_snoc. cbn [step]. unfold is_free in HF. rewrite HF. unfold waits_cur, set_p; evq.
    rewrite upd_eq. destruct (fired _ _); auto. }
  apply (waits_cur_run p ls2) in HW; auto. rewrite <- after_app, <- app_assoc in HW. cbn [app] in HW.
  destruct HW as [HW|HW].
  - exfalso. apply HB. unfold returns. cbn [step]. rewrite HW. reflexivity.
  - replace (ls ++ LWaitTrigger p :: ls2 ++ [LReset false])
      with ((ls ++ LWaitTrigger p :: ls2) ++ [LReset false]) by now rewrite <- app_assoc.
    unfold trace_from. rewrite after_snoc. set (y := after (ls ++ LWaitTrigger p :: ls2)) in *.
    apply (lost_run p (cur y)); cbn [step reset fst]; unfold set_on; evq; [|lia].
    unfold wake_vc. rewrite HW. reflexivity.
Qed.
Print Assumptions C53_reset_loses_waiters.

Theorem C53_wait_off ls p delta ls2 :
  Forall no_callbacks (ls ++ LWaitOff p delta :: ls2) -> is_free ls p -> Forall (not_run p) ls2 ->
  spec_on (ls ++ LWaitOff p delta :: ls2) = false ->
  In (ORet p) (snd (step (after ls) (LWaitOff p delta))) \/
  returns (ls ++ LWaitOff p delta :: ls2) p.
Proof.
  intros HC HF HN HO. rewrite <- on_spec in HO by assumption. unfold is_free in HF.
  assert (HD : In (ORet p) (snd (step (after ls) (LWaitOff p delta))) \/
    (ps (after (ls ++ [LWaitOff p delta])) p = OnGo \/ exists g, ps (after (ls ++ [LWaitOff p delta])) p = Off g)).
  { rewrite after_snoc. cbn [step]. rewrite HF. destruct (on (after ls)); [|destruct delta]; cbn [fst snd];
      unfold set_p; evq; rewrite ?upd_eq; cbn [In]; eauto. }
  destruct HD as [HD|HD]; [now left|right].
  assert (HS : forall y l, not_run p l -> (ps y p = OnGo \/ exists g, ps y p = Off g) ->
    (ps (fst (step y l)) p = OnGo \/ exists g, ps (fst (step y l)) p = Off g)).
  { clear. intros y l Hn Hw.
    assert (HN : ps y p <> Idle) by (intros E; rewrite E in Hw; destruct Hw as [?|[? ?]]; discriminate).
    assert (HU : forall q s, ps y q = Idle -> upd (ps y) q s p = ps y p)
      by (intros q s Hq; apply upd_neq; congruence).
    assert (HV : forall f, f p = ps y p -> wake_vc f p = OnGo \/ exists g, wake_vc f p = Off g).
    { intros f Hf. unfold wake_vc. rewrite Hf. destruct Hw as [->|[g ->]]; [left|right; exists true]; reflexivity. }
    assert (HT : forall e, wake_trig e (ps y) p = ps y p).
    { intros e. unfold wake_trig. destruct Hw as [->|[g ->]]; reflexivity. }
    destruct l; open_ev; brk; evq; auto; try (rewrite HU by assumption; assumption);
      try (rewrite upd_neq; [auto|intros ->; now apply Hn]). }
  assert (HW : ps (after (ls ++ LWaitOff p delta :: ls2)) p = OnGo
               \/ exists g, ps (after (ls ++ LWaitOff p delta :: ls2)) p = Off g).
  { replace (ls ++ LWaitOff p delta :: ls2) with ((ls ++ [LWaitOff p delta]) ++ ls2) by now rewrite <- app_assoc.
    rewrite after_app. exact (run_pres (fun s => s = OnGo \/ exists g, s = Off g) p HS ls2 _ HN HD). }
  pose proof (inv_after (ls ++ LWaitOff p delta :: ls2)) as HI. unfold returns.
  set (y := after _) in *. destruct HW as [HW|[g HW]]; cbn [step]; rewrite HW; [reflexivity|].
  destruct g; [rewrite HO; reflexivity|]. apply (I_off _ HI) in HW. congruence.
Qed.
Print Assumptions C53_wait_off.

(** A wait_on called while the event is off does not return before a trigger. *)
Theorem C53_wait_on_blocks ls p delta more : Forall no_callbacks ls -> is_free ls p -> spec_on ls = false ->
  Forall (fun l => match l with LTrigger _ _ => False | _ => True end) more ->
  ~ In (ORet p) (trace_from (after ls) (LWaitOn p delta :: more)).
Proof.
  intros HC HF HO HM. rewrite <- on_spec in HO by assumption. unfold is_free in HF.
  assert (G : forall more y, Forall (fun l => match l with LTrigger _ _ => False | _ => True end) more ->
    on y = false -> (exists g, ps y p = On g) -> ~ In (ORet p) (snd (run_machine step y more))).
  { clear. induction more as [|l more IH]; intros y HM HO [g HG]; [intros []|]. inversion HM as [|? ? H1 H2]; subst.
    cbn [run_machine]. destruct (step y l) as [y' o] eqn:E.
    assert (A : on y' = false /\ (exists g, ps y' p = On g) /\ ~ In (ORet p) o).
    { destruct l; cbn [step] in E; try contradiction;
        unfold reset, set_on, set_p, wake_vc in E; cbv zeta in E; rewrite ?HO in E;
        repeat match type of E with context [match ?x with _ => _ end] => lazymatch x with
          | ps y ?q => destruct (Nat.eq_dec q p) as [->|]; [rewrite HG in E|destruct (ps y q) eqn:?]
          | _ => destruct x eqn:? end end;
        injection E as <- <-; cbn [on ps]; (split; [auto|]; split;
          [unfold wake_trig; rewrite ?upd_eq, ?upd_neq by auto; rewrite ?HG; eauto
          |cbn; intuition congruence]). }
    destruct A as (A1 & A2 & A3). specialize (IH y' H2 A1 A2). destruct (run_machine step y' more). cbn [snd] in *.
    rewrite in_app_iff. tauto. }
  unfold trace_from. cbn [run_machine step]. rewrite HF, HO.
  specialize (G more (set_p (after ls) p (On (vc (after ls))) (nwait (after ls) + 1)) HM).
  destruct (run_machine step _ more). cbn [snd app] in *. apply G; unfold set_p; cbn [on ps]; [auto|]. rewrite upd_eq. eauto.
Qed.
Print Assumptions C53_wait_on_blocks.

Example C53_example :
  let pre := fun _ : nat => None in
  let ls := [LReset false; LTrigger None pre; LReset true] in
  let l2 := [LWaitOn 2 false; LCancel] in
  is_free ls 1 /\ ~ returns (ls ++ LWaitTrigger 1 :: l2) 1
  /\ returns (ls ++ LWaitTrigger 1 :: l2 ++ LTrigger (Some 4) pre :: [LRun 2]) 1
  /\ spec_on (ls ++ LWaitTrigger 1 :: l2 ++ LTrigger (Some 4) pre :: [LRun 2]) = true
  /\ trace_from event0 (ls ++ LWaitTrigger 1 :: l2 ++ LTrigger (Some 4) pre :: [LRun 2])
     = [OReset; OTriggered None; OReset; OTriggered (Some 4); ORet 2].
Proof.
  cbv zeta. split; [reflexivity|]. split; [|repeat split; reflexivity].
  unfold returns. vm_compute. discriminate.
Qed.

(** ** C54 *)
Theorem C54_no_callbacks ls d pre : Forall no_callbacks ls ->
  snd (step (after ls) (LTrigger d pre)) = [OTriggered d]
  /\ on (after (ls ++ [LTrigger d pre])) = true
  /\ data (after (ls ++ [LTrigger d pre])) = d.
Proof.
  intros H. apply cbs_nil in H. rewrite after_snoc. cbn [step]. unfold trigger. rewrite H. cbn [rev].
  cbn. auto.
Qed.
Print Assumptions C54_no_callbacks.

(** With any callback registered, whatever its pre_trigger returns, trigger() does
    nothing, and only the callback registered last is asked. *)
Theorem C54_never_triggers ls d pre : cbs (after ls) <> [] ->
  after (ls ++ [LTrigger d pre]) = after ls
  /\ exists c l, cbs (after ls) = l ++ [c]
     /\ (snd (step (after ls) (LTrigger d pre)) = [OPre c; OSkipped]
         \/ snd (step (after ls) (LTrigger d pre)) = [OPre c; OExn]).
Proof.
  intros H. rewrite after_snoc. cbn [step]. unfold trigger.
  destruct (exists_last H) as (l & c & E). rewrite E, rev_app_distr. cbn [rev app].
  destruct (pre c); cbn [fst snd]; split; auto; exists c, l; auto.
Qed.
Print Assumptions C54_never_triggers.

Example C54_example :
  let pre := fun _ : nat => Some 0%Z in
  let ls := [LWaitTrigger 1; LAdd 7 true; LAdd 8 true] in
  cbs (after ls) = [7; 8]
  /\ trace_from (after ls) [LTrigger None pre; LRun 1] = [OPre 8; OSkipped]
  /\ trace_from event0 [LWaitTrigger 1; LTrigger None pre; LRun 1] = [OTriggered None; ORet 1].
Proof. repeat split; vm_compute; reflexivity. Qed.

(** ** C90: wait_trigger and earlier triggers *)
Lemma quiet_step y l : no_trigger l -> fired y (cur y) = false ->
  fired (fst (step y l)) (cur (fst (step y l))) = false /\ cur (fst (step y l)) = cur y.
Proof.
  intros Hl H. destruct l; try contradiction Hl; open_ev; brk; evq; rewrite ?upd_eq; auto; discriminate.
Qed.
Lemma quiet_run ls : forall y, Forall no_trigger ls -> fired y (cur y) = false ->
  fired (fst (run_machine step y ls)) (cur (fst (run_machine step y ls))) = false.
Proof.
  induction ls as [|l ls IH]; intros y HF H; [exact H|]. inversion HF; subst. cbn [run_machine].
  destruct (quiet_step y l H2 H) as [A _]. destruct (step y l) as [y1 o1]. specialize (IH y1 H3 A).
  cbn [fst] in *. now destruct (run_machine step y1 ls).
Qed.

Lemma trig_step y l p : no_trigger l -> ps y p = Trig (cur y) ->
  (ps (fst (step y l)) p = Trig (cur y) /\ cur (fst (step y l)) = cur y) /\ ~ In (ORet p) (snd (step y l)).
Proof.
  intros Hl Hw.
  assert (HU : forall q s, ps y q <> Trig (cur y) -> upd (ps y) q s p = Trig (cur y))
    by (intros q s Hq; rewrite upd_neq by congruence; auto).
  assert (HQ : forall q, ps y q <> Trig (cur y) -> ORet q <> ORet p) by (intros q Hq [= ->]; congruence).
  destruct l; try contradiction Hl; open_ev; brk; evq; repeat split; auto;
    try (apply HU; congruence); try (intros [H|[]]; try discriminate; revert H; apply HQ; congruence);
    try (intros [H|[H|[]]]; discriminate).
Qed.
Lemma trig_run p ls : forall y, Forall no_trigger ls -> ps y p = Trig (cur y) ->
  ~ In (ORet p) (snd (run_machine step y ls)).
Proof.
  induction ls as [|l ls IH]; intros y HF H; [cbn; auto|]. inversion HF; subst. cbn [run_machine].
  destruct (trig_step y l p H2 H) as [[A B] C]. destruct (step y l) as [y1 o1]. cbn [fst snd] in *.
  rewrite <- B in A. specialize (IH y1 H3 A). destruct (run_machine step y1 ls). cbn [snd] in *. intros HI.
  apply in_app_iff in HI as [HI|HI]; auto.
Qed.

Lemma quiet_waits y p more : fired y (cur y) = false -> ps y p = Idle -> Forall no_trigger more ->
  ~ In (ORet p) (snd (run_machine step y (LWaitTrigger p :: more))).
Proof.
  intros H HP HM HI. assert (E : step y (LWaitTrigger p) = (set_p y p (Trig (cur y)) (nwait y + 1)%Z, [])).
  { cbn [step]. rewrite HP, H. reflexivity. }
  cbn [run_machine] in HI. rewrite E in HI. revert HI.
  pose proof (trig_run p more (set_p y p (Trig (cur y)) (nwait y + 1)%Z) HM) as HX.
  destruct (run_machine step _ more). cbn [snd app] in *. apply HX. unfold set_p; evq. now rewrite upd_eq.
Qed.

(** Called when nothing was triggered since the last reset, or since the last time a
    process came back from wait_trigger, it returns only after a new trigger. *)
Theorem C90_wait_trigger ls ls2 p more :
  ls = [] \/ (exists l0 w, ls = l0 ++ [LReset w])
  \/ (exists l0 q l1, ls = l0 ++ LWaitTrigger q :: l1 ++ [LRun q] /\ is_free l0 q
        /\ Forall (not_run q) l1 /\ Forall no_reset l1 /\ returns (l0 ++ LWaitTrigger q :: l1) q) ->
  Forall no_trigger ls2 -> is_free (ls ++ ls2) p -> Forall no_trigger more ->
  ~ In (ORet p) (trace_from (after (ls ++ ls2)) (LWaitTrigger p :: more)).
Proof.
  intros Hls H2 HF HM. unfold trace_from. apply quiet_waits; auto.
  rewrite after_app. apply quiet_run; auto.
  destruct Hls as [->|[(l0 & w & ->)|(l0 & q & l1 & -> & Hq & Hn & Hr & Hret)]].
  - reflexivity.
  - rewrite after_snoc. cbn [step reset fst]. unfold set_on; evq.
    apply (I_new _ (inv_after l0)). lia.
  - replace (l0 ++ LWaitTrigger q :: l1 ++ [LRun q]) with ((l0 ++ LWaitTrigger q :: l1) ++ [LRun q])
      by now rewrite <- app_assoc.
    rewrite after_snoc.
    assert (HW : waits_cur (after (l0 ++ [LWaitTrigger q])) q).
    { rewrite after_snoc. cbn [step]. unfold is_free in Hq. rewrite Hq. unfold waits_cur, set_p; evq.
      rewrite upd_eq. destruct (fired _ _); auto. }
    apply (waits_cur_run q l1) in HW; auto. rewrite <- after_app, <- app_assoc in HW. cbn [app] in HW.
    unfold returns in Hret. set (y := after (l0 ++ LWaitTrigger q :: l1)) in *.
    destruct HW as [HW|HW]; cbn [step] in *; rewrite HW in *; [|discriminate].
    cbn [fst]; evq. now rewrite upd_eq.
Qed.
Print Assumptions C90_wait_trigger.

(** A trigger nobody waited for makes a later wait_trigger return at once: the case
    the documentation says does not return until the next trigger. *)
Theorem C90_stale_trigger d pre mid p :
  Forall (fun l => match l with LCancel | LWaitOn _ _ => True | _ => False end) mid ->
  is_free (LTrigger d pre :: mid) p ->
  returns (LTrigger d pre :: mid ++ [LWaitTrigger p]) p.
Proof.
  intros HM HF. change (LTrigger d pre :: mid ++ [LWaitTrigger p]) with ((LTrigger d pre :: mid) ++ [LWaitTrigger p]).
  assert (H : fired (after (LTrigger d pre :: mid)) (cur (after (LTrigger d pre :: mid))) = true).
  { change (LTrigger d pre :: mid) with ([LTrigger d pre] ++ mid). rewrite after_app. clear HF.
    assert (H0 : fired (after [LTrigger d pre]) (cur (after [LTrigger d pre])) = true) by reflexivity.
    revert H0. generalize (after [LTrigger d pre]). induction HM as [|l mid Hl HM IH]; intros y H0; [exact H0|].
    cbn [run_machine]. assert (H1 : fired (fst (step y l)) (cur (fst (step y l))) = true).
    { destruct l; try contradiction Hl; open_ev; brk; evq; auto. }
    destruct (step y l) as [y1 o1]. specialize (IH y1 H1). now destruct (run_machine step y1 mid). }
  unfold returns. rewrite after_snoc. cbn [step]. unfold is_free in HF. rewrite HF, H. cbn [fst].
  unfold set_p; evq. now rewrite upd_eq.
Qed.
Print Assumptions C90_stale_trigger.

Example C90_example :
  let pre := fun _ : nat => None in
  trace_from event0 [LReset true; LWaitTrigger 1; LRun 1; LTrigger None pre; LRun 1; LWaitTrigger 1; LRun 1]
  = [OReset; OTriggered None; ORet 1]
  /\ trace_from event0 [LTrigger None pre; LCancel; LWaitTrigger 1; LRun 1] = [OTriggered None; ORet 1].
Proof. split; vm_compute; reflexivity. Qed.

(** ** C91: wait_ptrigger *)
Theorem C91_ptrigger ls d pre ls2 p :
  Forall no_callbacks ls -> Forall no_reset ls2 -> Forall (fun l => forall q, l <> LRun q) ls2 ->
  is_free (ls ++ LTrigger d pre :: ls2) p ->
  snd (step (after (ls ++ LTrigger d pre :: ls2)) (LWaitPtrigger p)) = [ORet p].
Proof.
  intros HC HR HN HF.
  assert (H : fired (after (ls ++ LTrigger d pre :: ls2)) (cur (after (ls ++ LTrigger d pre :: ls2))) = true).
  { replace (ls ++ LTrigger d pre :: ls2) with ((ls ++ [LTrigger d pre]) ++ ls2) by now rewrite <- app_assoc.
    rewrite after_app.
    assert (H0 : fired (after (ls ++ [LTrigger d pre])) (cur (after (ls ++ [LTrigger d pre]))) = true).
    { rewrite after_snoc. cbn [step]. unfold trigger. rewrite (cbs_nil ls HC). cbn [rev fst].
      unfold set_on; evq. now rewrite upd_eq. }
    revert H0. generalize (after (ls ++ [LTrigger d pre])). clear - HR HN.
    induction ls2 as [|l ls2 IH]; intros y H0; [exact H0|].
    inversion HR as [|? ? R1 R2]; inversion HN as [|? ? N1 N2]; subst. cbn [run_machine].
    assert (H1' : fired (fst (step y l)) (cur (fst (step y l))) = true).
    { destruct l; try contradiction; open_ev; brk; evq; rewrite ?upd_eq; auto; try discriminate; now destruct (N1 p). }
    destruct (step y l) as [y1 o1]. specialize (IH R2 N2 y1 H1'). now destruct (run_machine step y1 ls2). }
  cbn [step]. unfold is_free in HF. rewrite HF, H. reflexivity.
Qed.
Print Assumptions C91_ptrigger.

(** As soon as one of the processes woken by the trigger has run, wait_ptrigger
    no longer sees it. *)
Theorem C91_ptrigger_lost ls q d pre p :
  Forall no_callbacks ls -> is_free ls q -> is_free ls p -> p <> q ->
  ~ In (ORet p) (snd (step (after (ls ++ [LWaitTrigger q; LTrigger d pre; LRun q])) (LWaitPtrigger p)))
  /\ forall more, Forall no_trigger more ->
     ~ In (ORet p) (trace_from (after (ls ++ [LWaitTrigger q; LTrigger d pre; LRun q; LWaitPtrigger p])) more).
Proof.
  intros HC Hq Hp N.
  assert (HX : forall y, cbs y = [] -> ps y q = Idle -> ps y p = Idle ->
    let y3 := fst (run_machine step y [LWaitTrigger q; LTrigger d pre; LRun q]) in
    fired y3 (cur y3) = false /\ ps y3 p = Idle).
  { clear - N. intros y Hc Hq Hp y3. subst y3. cbn [run_machine step]. rewrite Hq. cbn [fst].
    unfold trigger, set_p; evq. rewrite Hc. cbn [rev]. unfold set_on; evq.
    assert (E : wake_vc (wake_trig (cur y) (upd (ps y) q (if fired y (cur y) then TrigGo else Trig (cur y)))) q = TrigGo).
    { unfold wake_vc, wake_trig. rewrite upd_eq. destruct (fired y (cur y)); [|rewrite Nat.eqb_refl]; reflexivity. }
    rewrite E. cbn [fst]; evq. rewrite upd_eq. split; [reflexivity|]. rewrite upd_neq by auto.
    unfold wake_vc, wake_trig. rewrite upd_neq by auto. now rewrite Hp. }
  specialize (HX (after ls) (cbs_nil ls HC) Hq Hp). cbv zeta in HX. rewrite <- after_app in HX.
  destruct HX as [H1 H2].
  assert (E : step (after (ls ++ [LWaitTrigger q; LTrigger d pre; LRun q])) (LWaitPtrigger p)
     = (set_p (after (ls ++ [LWaitTrigger q; LTrigger d pre; LRun q])) p
         (Trig (cur (after (ls ++ [LWaitTrigger q; LTrigger d pre; LRun q]))))
         (nwait (after (ls ++ [LWaitTrigger q; LTrigger d pre; LRun q])) + 1)%Z, [])).
  { cbn [step]. rewrite H2, H1. reflexivity. }
  split; [rewrite E; cbn; auto|]. intros more HM.
  replace (ls ++ [LWaitTrigger q; LTrigger d pre; LRun q; LWaitPtrigger p])
    with ((ls ++ [LWaitTrigger q; LTrigger d pre; LRun q]) ++ [LWaitPtrigger p]) by now rewrite <- app_assoc.
  unfold trace_from. rewrite after_snoc, E. cbn [fst]. apply trig_run; auto. unfold set_p; evq. now rewrite upd_eq.
Qed.
Print Assumptions C91_ptrigger_lost.

Example C91_example :
  let pre := fun _ : nat => None in
  trace_from event0 [LTrigger None pre; LWaitTrigger 2; LWaitPtrigger 1] = [OTriggered None; ORet 1]
  /\ trace_from event0 [LWaitTrigger 2; LTrigger None pre; LRun 2; LWaitPtrigger 1; LRun 1]
     = [OTriggered None; ORet 2].
Proof. split; vm_compute; reflexivity. Qed.

(** ** C92: where add_callback puts a callback *)
Theorem C92_add_callback ls c append :
  ~ In c (cbs (after ls)) -> append = true \/ cbs (after ls) <> [] ->
  cbs (after (ls ++ [LAdd c append])) =
    if append then cbs (after ls) ++ [c] else c :: cbs (after ls).
Proof.
  intros HN HE. rewrite after_snoc. cbn [step].
  destruct (existsb (Nat.eqb c) (cbs (after ls))) eqn:E.
  { apply existsb_exists in E as (x & Hx & Ex). apply Nat.eqb_eq in Ex as <-. contradiction. }
  destruct append; [reflexivity|]. destruct HE as [HE|HE]; [discriminate|].
  destruct (cbs (after ls)) eqn:Ec; [contradiction|]. cbn [fst]; evq. reflexivity.
Qed.
Print Assumptions C92_add_callback.

Theorem C92_add_first_dropped ls c :
  cbs (after ls) = [] -> cbs (after (ls ++ [LAdd c false])) = [].
Proof. intros H. rewrite after_snoc. cbn [step]. rewrite H. cbn. now rewrite H. Qed.
Print Assumptions C92_add_first_dropped.

Lemma existsb_In c l : existsb (Nat.eqb c) l = false -> ~ In c l.
Proof.
  intros H HI. rewrite <- not_true_iff_false in H. apply H. apply existsb_exists. exists c.
  split; [assumption|apply Nat.eqb_refl].
Qed.

(** No callback is registered twice; deleting removes it. *)
Lemma del1_In c l x : In x (del1 c l) -> In x l.
Proof. induction l as [|z l IH]; cbn; [auto|]. destruct (Nat.eqb z c); cbn; intuition. Qed.
Lemma del1_NoDup c l : NoDup l -> NoDup (del1 c l) /\ ~ In c (del1 c l).
Proof.
  induction 1 as [|x l Hx HN [IH1 IH2]]; cbn; [split; [constructor|auto]|].
  destruct (Nat.eqb_spec x c) as [->|N]; [auto|]. split.
  - constructor; auto. intros H. apply del1_In in H. auto.
  - intros [H|H]; auto.
Qed.
Theorem C92_nodup ls : NoDup (cbs (after ls)).
Proof.
  refine (run_machine_inv step (fun y _ => NoDup (cbs y)) _ ls event0 [] _); [|constructor].
  intros y _ l H. destruct l; open_ev; brk; evq; auto.
  - apply existsb_In in E. apply NoDup_rev in H. rewrite <- (rev_involutive (cbs y ++ [c])).
    apply NoDup_rev. rewrite rev_app_distr. cbn. constructor; auto. now rewrite <- in_rev.
  - now rewrite E1.
  - apply existsb_In in E. now constructor.
  - now apply del1_NoDup.
Qed.
Print Assumptions C92_nodup.

Theorem C92_delete ls c : ~ In c (cbs (after (ls ++ [LDelete c]))).
Proof.
  rewrite after_snoc. cbn [step]. destruct (existsb (Nat.eqb c) (cbs (after ls))) eqn:E; cbn [fst]; evq.
  - apply del1_NoDup, C92_nodup.
  - now apply existsb_In.
Qed.
Print Assumptions C92_delete.

Example C92_example :
  cbs (after [LAdd 1 true; LAdd 2 false; LAdd 1 true; LAdd 3 true; LDelete 1]) = [2; 3]
  /\ cbs (after [LAdd 2 false]) = [].
Proof. split; reflexivity. Qed.

(** ** C106: get_num_waiters *)
Local Open Scope Z_scope.
Theorem C106_nonneg ls : 0 <= nwait (after ls).
Proof.
  refine (run_machine_inv step (fun y _ => 0 <= nwait y) _ ls event0 [] _); [|cbn; lia].
  intros y _ l H. destruct l; open_ev; brk; evq; try lia.
Qed.
Theorem C106_waiters ls n : Forall no_callbacks ls -> waiters ls n -> nwait (after ls) = n.
Proof.
  intros HC W. induction W as [|ls l Hl|ls n W IH|ls l n W IH Hb|ls l n W IH Hb Hl].
  - reflexivity.
  - apply Forall_app in HC as [HC _]. rewrite after_snoc. destruct Hl as [(d & pre & ->)|(w & ->)]; cbn [step].
    + unfold trigger. rewrite (cbs_nil ls HC). reflexivity.
    + reflexivity.
  - apply Forall_app in HC as [HC _]. specialize (IH HC). rewrite after_snoc. cbn [step fst nwait].
    pose proof (C106_nonneg ls). destruct (Z.ltb_spec 0 (nwait (after ls))); lia.
  - apply Forall_app in HC as [HC _]. specialize (IH HC). rewrite after_snoc.
    pose proof (on_spec ls HC) as HO.
    destruct l; cbn [has_to_wait] in Hb; try contradiction; unfold is_free in Hb.
    + destruct Hb as [Hp Hs]. cbn [step]. rewrite Hp, HO, Hs. cbn [fst set_p nwait]. lia.
    + destruct Hb as [Hp Hs]. cbn [step]. rewrite Hp, HO, Hs. cbn [fst set_p nwait]. lia.
    + cbn [step]. rewrite Hb. cbn [fst set_p nwait]. lia.
    + destruct Hb as [Hp Hs]. cbn [step] in *. rewrite Hp in *. destruct (fired _ _); [now destruct Hs|].
      cbn [fst set_p nwait]. lia.
  - apply Forall_app in HC as [HC HL]. specialize (IH HC). rewrite after_snoc.
    pose proof (on_spec ls HC) as HO. rewrite <- IH. clear IH.
    destruct l; cbn [has_to_wait] in Hb; try contradiction; unfold is_free in Hb; cbn [step] in *.
    + destruct (ps (after ls) p) eqn:Ep; try reflexivity. rewrite <- HO in Hb.
      destruct (on (after ls)); [reflexivity|]. destruct Hb. auto.
    + destruct (ps (after ls) p) eqn:Ep; try reflexivity. rewrite <- HO in Hb.
      destruct (on (after ls)); [destruct Hb; auto|]. destruct delta; reflexivity.
    + destruct (ps (after ls) p) eqn:Ep; try reflexivity. now destruct Hb.
    + destruct (ps (after ls) p) eqn:Ep; try reflexivity. destruct (fired _ _); [reflexivity|].
      destruct Hb. split; [reflexivity|]. discriminate.
    + destruct (ps (after ls) p) as [| | | |g|g]; try reflexivity; destruct g; try reflexivity; destruct (on (after ls)); reflexivity.
    + inversion HL as [|? ? X]. destruct X.
    + destruct (existsb _ _); reflexivity.
Qed.
(** There is such a number for every history. *)
Theorem C106_defined ls : Forall no_callbacks ls -> waiters ls (nwait (after ls)).
Proof.
  intros HC. assert (X : exists n, waiters ls n).
  { clear HC. induction ls as [|l ls IH] using rev_ind; [exists 0; constructor|]. destruct IH as [n W].
    assert (D : has_to_wait ls l \/ ~ has_to_wait ls l).
    { destruct l; cbn [has_to_wait]; try tauto; unfold is_free; destruct (ps (after ls) p) eqn:Ep;
        try (right; intuition discriminate); try (left; reflexivity).
      - destruct (spec_on ls); intuition discriminate.
      - destruct (spec_on ls); intuition discriminate.
      - cbn [step]. rewrite Ep. destruct (fired _ _); cbn [snd]; [right; tauto|left; split; [reflexivity|discriminate]]. }
    destruct l; try (exists 0; apply w_zero; eauto; fail); try (exists (Z.max 0 (n - 1)); constructor; assumption);
      destruct D as [D|D]; try (exists (n + 1); apply w_wait; assumption); exists n; apply w_other; auto. }
  destruct X as [n W]. rewrite (C106_waiters ls n HC W). exact W.
Qed.
(** The number is not that of the processes waiting: one whose wait_trigger has returned
    is still counted, and one waiting for the event to go off is forgotten when the event
    is triggered again. *)
Theorem C106_count_limit p d pre :
  (nwait (after [LTrigger d pre; LWaitTrigger p; LRun p]) = 1 /\ is_free [LTrigger d pre; LWaitTrigger p; LRun p] p) /\
  (nwait (after [LTrigger d pre; LWaitOff p false; LTrigger d pre]) = 0 /\
   ~ is_free [LTrigger d pre; LWaitOff p false; LTrigger d pre] p).
Proof.
  assert (E1 : forall A (x y : A), (if Nat.eqb p p then x else y) = x) by (intros; now rewrite Nat.eqb_refl).
  unfold is_free, after. split; split; cbn; unfold upd, wake_trig, wake_vc; cbn; unfold upd; rewrite ?E1; cbn; rewrite ?E1; cbn;
    try reflexivity.
  discriminate.
Qed.
Example C106_example :
  waiters [LWaitTrigger 1%nat; LWaitOn 2%nat true; LWaitPtrigger 3%nat; LCancel] 2 /\
  nwait (after [LWaitTrigger 1%nat; LWaitOn 2%nat true; LWaitPtrigger 3%nat; LCancel]) = 2.
Proof.
  split; [|reflexivity].
  apply (w_cancel [LWaitTrigger 1%nat; LWaitOn 2%nat true; LWaitPtrigger 3%nat] 3).
  apply (w_wait [LWaitTrigger 1%nat; LWaitOn 2%nat true] (LWaitPtrigger 3%nat) 2).
  - apply (w_wait [LWaitTrigger 1%nat] (LWaitOn 2%nat true) 1).
    + apply (w_wait [] (LWaitTrigger 1%nat) 0); [constructor|reflexivity].
    + split; reflexivity.
  - split; [reflexivity|]. vm_compute. discriminate.
Qed.
Print Assumptions C106_nonneg.
Print Assumptions C106_waiters.
Print Assumptions C106_defined.
Print Assumptions C106_count_limit.
