From Coq Require Import ZArith List Bool Arith Lia.
From Verif Require Import Prelude EventModel EventSpec.
Import ListNotations.
Local Open Scope nat_scope.

Ltac evq := cbn [cur fired on vc nwait data cbs ps set_on set_p fst snd] in *.
Ltac open_ev := cbn [step]; unfold trigger, reset, set_on, set_p; evq.
Ltac brk :=
  repeat match goal with
  | |- context[match ?x with _ => _ end] =>
      lazymatch x with
      | context[match _ with _ => _ end] => fail
      | _ => let E := fresh "E" in destruct x eqn:E
      end
  end.

Lemma after_app l1 l2 : after (l1 ++ l2) = fst (run_machine step (after l1) l2).
Proof. unfold after. now rewrite run_machine_app. Qed.
Lemma after_snoc ls l : after (ls ++ [l]) = fst (step (after ls) l).
Proof. rewrite after_app. cbn [run_machine]. now destruct (step (after ls) l). Qed.

Lemma del1_nil c l : l = [] -> del1 c l = [].
Proof. intros ->. reflexivity. Qed.

Lemma step_cbs y l : no_callbacks l -> cbs y = [] -> cbs (fst (step y l)) = [].
Proof.
  intros Hl H. destruct l; try contradiction Hl; open_ev; rewrite ?H; cbn; brk; evq; auto.
Qed.

Lemma cbs_nil ls : Forall no_callbacks ls -> cbs (after ls) = [].
Proof.
  intros H. refine (run_machine_inv_ok step no_callbacks (fun y _ => cbs y = []) _ ls event0 [] H eq_refl).
  intros. now apply step_cbs.
Qed.

Lemma step_on y l : cbs y = [] -> on (fst (step y l)) = spec_on1 (on y) l.
Proof.
  intros H. destruct l; open_ev; rewrite ?H; cbn; brk; evq; auto.
Qed.

Lemma on_spec ls : Forall no_callbacks ls -> on (after ls) = spec_on ls.
Proof.
  induction ls as [|l ls IH] using rev_ind; intros H; [reflexivity|].
  apply Forall_app in H as [H1 H2]. rewrite after_snoc, step_on by now apply cbs_nil.
  rewrite IH by assumption. unfold spec_on. now rewrite fold_left_app.
Qed.

(** Waiters that were not woken see a state they do not wait for; event objects are
    numbered up to the current one. *)
Record inv (y : event) : Prop := {
  I_on : forall p, ps y p = On false -> on y = false;
  I_off : forall p, ps y p = Off false -> on y = true;
  I_trig : forall p e, ps y p = Trig e -> e <= cur y;
  I_cur : forall p, ps y p = Trig (cur y) -> fired y (cur y) = false;
  I_new : forall e, cur y < e -> fired y e = false
}.

Lemma upd_case {A} (f : nat -> A) k v p : upd f k v p = v /\ p = k \/ upd f k v p = f p /\ p <> k.
Proof.
  destruct (Nat.eq_dec p k) as [->|N]; [left; now rewrite upd_eq|right; now rewrite upd_neq by auto].
Qed.

Lemma wake_trig_case e f p : wake_trig e f p = TrigGo \/ wake_trig e f p = f p /\ f p <> Trig e.
Proof.
  unfold wake_trig. destruct (f p) eqn:E; auto; try (right; split; [reflexivity|discriminate]).
  destruct (Nat.eqb e0 e) eqn:E1; auto. right. split; [reflexivity|]. intros [= ->].
  now rewrite Nat.eqb_refl in E1.
Qed.
Lemma wake_vc_case f p :
  wake_vc f p = On true \/ wake_vc f p = Off true \/
  wake_vc f p = f p /\ (forall g, f p <> On g) /\ (forall g, f p <> Off g).
Proof.
  unfold wake_vc. destruct (f p); auto; right; right; (split; [reflexivity|split; discriminate]).
Qed.

Lemma inv_p y p s n : inv y ->
  (s = On false -> on y = false) -> (s = Off false -> on y = true) ->
  (forall e, s = Trig e -> e = cur y /\ fired y (cur y) = false) ->
  inv (set_p y p s n).
Proof.
  intros [A B C D E] H1 H2 H3. constructor; unfold set_p; evq; intros q;
    try (intros e Hq); try intros Hq; auto;
    destruct (upd_case (ps y) p s q) as [[Hu ->]|[Hu N]]; rewrite Hu in Hq; eauto;
    try (apply H3 in Hq as [? Hf]; subst; auto).
Qed.

Lemma inv_set_on y b : inv y -> inv (set_on y b).
Proof.
  intros [A B C D E]. constructor; unfold set_on; evq; intros q; try (intros e Hq); try intros Hq; auto;
    destruct (wake_vc_case (ps y) q) as [Hu|[Hu|[Hu [N1 N2]]]]; rewrite Hu in Hq;
    try discriminate; try (now apply N1 in Hq); try (now apply N2 in Hq); eauto.
Qed.

Lemma inv_step y l : inv y -> inv (fst (step y l)).
Proof.
  intros H. destruct l; cbn [step].
  - unfold trigger. destruct (rev (cbs y)) as [|c r].
    + cbn [fst]. apply inv_set_on. destruct H as [A B C D E].
      constructor; evq; intros q; try (intros e Hq); try intros Hq;
        try (destruct (wake_trig_case (cur y) (ps y) q) as [Hu|[Hu N]]; rewrite Hu in Hq; try discriminate; eauto).
      * contradiction.
      * rewrite upd_neq by lia. auto.
    + destruct (pre c); exact H.
  - unfold reset. cbn [fst]. apply inv_set_on. destruct H as [A B C D E].
    assert (HC : forall p s, (if wakeup then wake_trig (cur y) (ps y) else ps y) p = s ->
      s = TrigGo \/ ps y p = s).
    { intros p s <-. destruct wakeup; [|auto].
      destruct (wake_trig_case (cur y) (ps y) p) as [Hu|[Hu N]]; rewrite Hu; auto. }
    constructor; evq; intros q; try (intros e Hq); try intros Hq;
      try (apply HC in Hq as [Hq|Hq]; [discriminate|]); eauto.
    apply E. lia.
  - destruct H as [A B C D E]. constructor; evq; auto.
  - destruct (ps y p) eqn:Ep; cbn [fst]; auto.
    destruct (on y) eqn:Eo; cbn [fst]; apply inv_p; auto; try discriminate.
  - destruct (ps y p) eqn:Ep; cbn [fst]; auto.
    destruct (on y) eqn:Eo; [|destruct delta]; cbn [fst]; try apply inv_p; auto; try discriminate.
  - destruct (ps y p) eqn:Ep; cbn [fst]; auto.
    destruct (fired y (cur y)) eqn:Ef; apply inv_p; auto; try discriminate.
    intros e [= <-]. auto.
  - destruct (ps y p) eqn:Ep; cbn [fst]; auto.
    destruct (fired y (cur y)) eqn:Ef; cbn [fst]; auto. apply inv_p; auto; try discriminate.
    intros e [= <-]. auto.
  - destruct (ps y p) as [|e| | |g|g] eqn:Ep; cbn [fst]; auto.
    + destruct H as [A B C D E].
      constructor; evq; intros q; try (intros e Hq); try intros Hq;
        try (destruct (upd_case (ps y) p Idle q) as [[Hu ->]|[Hu N]]; rewrite Hu in Hq; try discriminate; eauto).
      * now rewrite upd_eq.
      * rewrite upd_neq by lia. auto.
    + apply inv_p; auto; discriminate.
    + destruct g; [|exact H].
      assert (H0 : inv (Ev (cur y) (fired y) (on y) false (nwait y) (data y) (cbs y) (ps y)))
        by (destruct H; constructor; auto).
      destruct (on y) eqn:Eo; cbn [fst].
      * apply (inv_p _ p Idle (nwait y)) in H0; try discriminate. exact H0.
      * apply (inv_p _ p (On false) (nwait y)) in H0; try discriminate; auto.
    + destruct g; [|exact H].
      assert (H0 : inv (Ev (cur y) (fired y) (on y) false (nwait y) (data y) (cbs y) (ps y)))
        by (destruct H; constructor; auto).
      destruct (on y) eqn:Eo; cbn [fst].
      * apply (inv_p _ p (Off false) (nwait y)) in H0; try discriminate; auto.
      * apply (inv_p _ p Idle (nwait y)) in H0; try discriminate. exact H0.
  - destruct H as [A B C D E]. destruct (existsb _ _); [constructor; auto|].
    destruct append; [constructor; auto|]. destruct (cbs y); constructor; auto.
  - destruct H as [A B C D E]. destruct (existsb _ _); constructor; auto.
Qed.

Lemma inv0 : inv event0.
Proof. constructor; cbn; try discriminate; auto. Qed.

Lemma inv_after ls : inv (after ls).
Proof.
  refine (run_machine_inv step (fun y _ => inv y) _ ls event0 [] inv0).
  intros. now apply inv_step.
Qed.

(** A pending process changes only when woken or when it runs. *)
Definition waits_on (s : pst) : Prop := s = OnGo \/ exists g, s = On g.
Lemma waits_on_step y l p : not_run p l -> waits_on (ps y p) -> waits_on (ps (fst (step y l)) p).
Proof.
  intros Hn Hw. assert (HN : ps y p <> Idle) by (intros E; rewrite E in Hw; destruct Hw as [?|[? ?]]; discriminate).
  assert (HU : forall q s, ps y q = Idle -> upd (ps y) q s p = ps y p)
    by (intros q s Hq; apply upd_neq; congruence).
  assert (HV : forall f, f p = ps y p -> waits_on (wake_vc f p)).
  { intros f Hf. unfold wake_vc. rewrite Hf. destruct Hw as [->|[g ->]]; [left|right; exists true]; reflexivity. }
  assert (HT : forall e, wake_trig e (ps y) p = ps y p).
  { intros e. unfold wake_trig. destruct Hw as [->|[g ->]]; reflexivity. }
  destruct l; open_ev; brk; evq; auto; try (rewrite HU by assumption; assumption);
    try (rewrite upd_neq; [auto|intros ->; now apply Hn]).
Qed.

Lemma run_pres (P : pst -> Prop) p :
  (forall y l, not_run p l -> P (ps y p) -> P (ps (fst (step y l)) p)) ->
  forall ls y, Forall (not_run p) ls -> P (ps y p) -> P (ps (fst (run_machine step y ls)) p).
Proof.
  intros HS ls. induction ls as [|l ls IH]; intros y HF HP; [exact HP|].
  inversion HF; subst. cbn [run_machine]. specialize (HS y l H1 HP).
  destruct (step y l) as [y1 o1]. specialize (IH y1 H2 HS). cbn [fst] in *.
  now destruct (run_machine step y1 ls).
Qed.

(** Made runnable, it stays so until it runs. *)
Lemma triggo_step y l p : not_run p l -> ps y p = TrigGo -> ps (fst (step y l)) p = TrigGo.
Proof.
  intros Hn Hw.
  assert (HU : forall q s, ps y q = Idle -> upd (ps y) q s p = TrigGo)
    by (intros q s Hq; rewrite upd_neq by congruence; auto).
  assert (HV : forall f, f p = TrigGo -> wake_vc f p = TrigGo) by (intros f Hf; unfold wake_vc; now rewrite Hf).
  assert (HT : forall e, wake_trig e (ps y) p = TrigGo) by (intros e; unfold wake_trig; now rewrite Hw).
  destruct l; open_ev; brk; evq; auto; try (now apply HU);
    try (rewrite upd_neq; [auto|intros ->; now apply Hn]).
Qed.

Definition waits_cur (y : event) (p : nat) : Prop := ps y p = TrigGo \/ ps y p = Trig (cur y).
Lemma waits_cur_step y l p : not_run p l -> no_reset l -> waits_cur y p -> waits_cur (fst (step y l)) p.
Proof.
  intros Hn Hr [Hw|Hw]; [left; now apply triggo_step|].
  unfold waits_cur.
  assert (HU : forall q s, ps y q = Idle -> upd (ps y) q s p = Trig (cur y))
    by (intros q s Hq; rewrite upd_neq by congruence; auto).
  assert (HV : forall f, f p = Trig (cur y) -> wake_vc f p = Trig (cur y)) by (intros f Hf; unfold wake_vc; now rewrite Hf).
  assert (HT : wake_vc (wake_trig (cur y) (ps y)) p = TrigGo)
    by (unfold wake_vc, wake_trig; rewrite Hw, Nat.eqb_refl; reflexivity).
  destruct l; try contradiction Hr; open_ev; brk; evq; auto; try (right; now apply HU);
    try (right; rewrite upd_neq; [auto|intros ->; now apply Hn]).
Qed.

Lemma waits_cur_run p ls : forall y, Forall (not_run p) ls -> Forall no_reset ls -> waits_cur y p ->
  waits_cur (fst (run_machine step y ls)) p.
Proof.
  induction ls as [|l ls IH]; intros y HF HR HP; [exact HP|].
  inversion HF; inversion HR; subst. cbn [run_machine].
  pose proof (waits_cur_step y l p H1 H5 HP) as HS.
  destruct (step y l) as [y1 o1]. specialize (IH y1 H2 H6 HS). cbn [fst] in *.
  now destruct (run_machine step y1 ls).
Qed.

Lemma waits_cur_wake y p l : cbs y = [] -> waits_cur y p ->
  (exists d pre, l = LTrigger d pre) \/ l = LReset true ->
  ps (fst (step y l)) p = TrigGo.
Proof.
  intros Hc Hw Hl. assert (HT : wake_trig (cur y) (ps y) p = TrigGo).
  { unfold wake_trig. destruct Hw as [->| ->]; [reflexivity|]. now rewrite Nat.eqb_refl. }
  destruct Hl as [(d & pre & ->)| ->]; open_ev; rewrite ?Hc; cbn [rev]; evq;
    unfold wake_vc; rewrite HT; reflexivity.
Qed.

(** Pending on an object that was replaced: stuck. *)
Lemma lost_step y l p e : ps y p = Trig e -> e < cur y ->
  ps (fst (step y l)) p = Trig e /\ e < cur (fst (step y l)) /\ ~ In (ORet p) (snd (step y l)).
Proof.
  intros Hw He.
  assert (HU : forall q s, ps y q <> Trig e -> upd (ps y) q s p = Trig e)
    by (intros q s Hq; rewrite upd_neq by congruence; auto).
  assert (HV : forall f, f p = Trig e -> wake_vc f p = Trig e) by (intros f Hf; unfold wake_vc; now rewrite Hf).
  assert (HT : wake_trig (cur y) (ps y) p = Trig e).
  { unfold wake_trig. rewrite Hw. destruct (Nat.eqb_spec e (cur y)); [lia|reflexivity]. }
  assert (HQ : forall q, ps y q <> Trig e -> ORet q <> ORet p) by (intros q Hq [= ->]; congruence).
  destruct l; open_ev; brk; evq; repeat split; auto;
    try (apply HU; congruence); try (intros [H|[]]; try discriminate; revert H; apply HQ; congruence);
    try (intros [H|[H|[]]]; discriminate).
Qed.

Lemma lost_run p e ls : forall y, ps y p = Trig e -> e < cur y -> ~ In (ORet p) (snd (run_machine step y ls)).
Proof.
  induction ls as [|l ls IH]; intros y Hw He; [cbn; auto|]. cbn [run_machine].
  destruct (lost_step y l p e Hw He) as (A & B & C). destruct (step y l) as [y1 o1]. cbn [fst snd] in *.
  specialize (IH y1 A B). destruct (run_machine step y1 ls). cbn [snd] in *. intros H.
  apply in_app_iff in H as [H|H]; auto.
Qed.

(** Nothing but a trigger or a reset sets the current object. *)
Lemma notrig_step y l p : no_trigger l -> not_run p l -> inv y -> ps y p = Trig (cur y) ->
  cbs y = [] -> ps (fst (step y l)) p = Trig (cur y) /\ cur (fst (step y l)) = cur y.
Proof.
  intros Hl Hn HI Hw Hc.
  assert (HU : forall q s, ps y q <> Trig (cur y) -> upd (ps y) q s p = Trig (cur y))
    by (intros q s Hq; rewrite upd_neq by congruence; auto).
  destruct l; try contradiction Hl; open_ev; brk; evq; split; auto; try (apply HU; congruence).
Qed.
