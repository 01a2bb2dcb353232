(** Settings in the component hierarchy: theorems. *)
From Coq Require Import List Bool Arith ZArith Lia.
From Verif Require Import Prelude ReportModel ReportSpec ReportProofs ReportProps HierModel HierSpec HierProofs.
Import ListNotations.
Local Open Scope nat_scope.

Lemma says_fun h x l op op' : says_report h x l op -> says_report h x l op' -> op = op'.
Proof. intros H1 H2. inversion H1; subst; inversion H2; subst; reflexivity. Qed.
Lemma said_snoc h x ls l ops : said h x (ls ++ [l]) ops ->
  exists ops', said h x ls ops' /\ ((exists op, says_report h x l op /\ ops = ops' ++ [op]) \/ ((forall op, ~ says_report h x l op) /\ ops = ops')).
Proof.
  revert ops. induction ls as [|a ls IH]; intros ops H; cbn [app] in H; inversion H; subst.
  - inversion H4; subst. exists []. split; [constructor|]. left. exists op. auto.
  - inversion H4; subst. exists []. split; [constructor|]. right. auto.
  - apply IH in H4. destruct H4 as (o & Ho & [(op1 & H1 & ->) | [H1 ->]]); exists (op :: o); (split; [now constructor|]); [left; exists op1; auto|right; auto].
  - apply IH in H4. destruct H4 as (o & Ho & R). exists o. split; [now apply said_no|exact R].
Qed.
Lemma under_dec h a x : proper h -> {under h a x} + {~ under h a x}.
Proof.
  intros Hp. induction x as [x IH] using lt_wf_rec. destruct (Nat.eq_dec a x) as [->|Hn]; [left; constructor|].
  destruct (nth_error (news h) (x - 1)) as [p|] eqn:E; [|right; intros H; inversion H; subst; [congruence|]; destruct H0; congruence].
  destruct (Nat.eq_dec x 0) as [->|Hx]; [right; intros H; inversion H; subst; [congruence|]; destruct H0; lia|].
  assert (Hc : child_of h p x) by (split; [lia|exact E]). destruct (IH p) as [H|H]; [now apply (child_older h)| |].
  - left. now apply under_child with p.
  - right. intros H'. inversion H' as [|q y Hq Hu]; subst; [congruence|]. apply H. now rewrite (child_fun h p q x).
Qed.
Lemma says_dec h x l : proper h -> (exists op, says_report h x l op) \/ (forall op, ~ says_report h x l op).
Proof.
  intros Hp. destruct l as [p cl|c op|c op|c d f|c ph i f|]; try (right; intros o H; now inversion H).
  - destruct (Nat.eq_dec c x) as [->|Hn]; [left; exists op; constructor|right; intros o H; inversion H; congruence].
  - destruct (under_dec h c x Hp) as [H|H]; [|right; intros o Ho; inversion Ho; congruence].
    destruct (has_hier op) eqn:E; [left; exists op; constructor; [exact H|now apply has_hier_ok]|right; intros o Ho; inversion Ho as [|? ? ? Hf]; subst; apply has_hier_ok in Hf; congruence].
Qed.

Lemma configure_snoc ops op : configure (ops ++ [op]) = hset (configure ops) op.
Proof. unfold configure. now rewrite fold_left_app. Qed.
Lemma level_ok ops sev id : get_verbosity_level (configure ops) sev id = level_in_force ops sev id.
Proof.
  unfold get_verbosity_level, level_in_force, first_of, dflt. rewrite p_si_verb, p_id_verb, p_verb.
  destruct (last_of (f_si_verb sev id) ops); [reflexivity|]. now destruct (last_of (f_id_verb id) ops).
Qed.

(** for the examples *)
Fixpoint properb (n : nat) (h : list label) : bool :=
  match h with [] => true | l :: h => (target l <? n) && properb (match l with LNew _ _ => S n | _ => n end) h end.
Lemma properb_ok h : properb 1 h = true -> proper h.
Proof.
  assert (G : forall h h0, properb (many h0) h = true -> forall h1 l h2, h = h1 ++ l :: h2 -> target l < many (h0 ++ h1)).
  { clear h. induction h as [|a h IH]; intros h0 H h1 l h2 E; [destruct h1; discriminate|]. cbn [properb] in H. apply andb_true_iff in H. destruct H as [H1 H2].
    destruct h1 as [|b h1]; injection E as -> E; [rewrite app_nil_r; now apply Nat.ltb_lt|].
    replace (h0 ++ b :: h1) with ((h0 ++ [b]) ++ h1) by now rewrite <- app_assoc. apply (IH (h0 ++ [b])) with h2; [|exact E]. rewrite many_snoc. exact H2. }
  intros H h1 l h2 E. apply (G h [] H h1 l h2 E).
Qed.

(** ** C171 *)
(** A component has exactly the report settings that the following calls would have given a new
    report object: its parent's verbosity level at that time, what the command line says, and
    what was said to it or, with _hier, to a component above it, since it was created. *)
Theorem C171_settings : forall cl0 h h1 p cl h2 x ops, proper h -> made h h1 p cl h2 x -> said h x h2 ops ->
  hand (fst (run cl0 h)) x = configure (HVerb (get_verbosity_level (hand (fst (run cl0 h1)) p) INFO 0) :: cl ++ ops).
Proof.
  intros cl0 h h1 p cl h2 x ops Hp [E ->] Hs.
  assert (G : forall r h2', h2 = h2' ++ r -> forall ops, said h (many h1) h2' ops ->
    hand (fst (run cl0 (h1 ++ LNew p cl :: h2'))) (many h1) = configure (HVerb (get_verbosity_level (hand (fst (run cl0 h1)) p) INFO 0) :: cl ++ ops)).
  { intros r h2'. revert r. clear Hs ops. induction h2' as [|l h2' IH] using rev_ind; intros r E2 ops Hs.
    - inversion Hs; subst ops. rewrite run_snoc. cbn [step fst]. unfold create. cbn zeta. cbn [hand].
      assert (Hp1 : proper h1) by (rewrite E in Hp; now apply proper_prefix in Hp). destruct (inv_run cl0 h1 Hp1) as [I _].
      rewrite <- (I_size h1 _ I), upd_same, app_nil_r. reflexivity.
    - apply said_snoc in Hs. destruct Hs as (ops' & Hs & R).
      assert (Hp2 : proper ((h1 ++ LNew p cl :: h2') ++ [l])). { apply proper_prefix with r. rewrite E, E2 in Hp. now rewrite <- !app_assoc in *. }
      assert (Hp3 := proper_prefix _ _ Hp2). destruct (inv_run cl0 _ Hp3) as [I _].
      assert (Hx : many h1 < many (h1 ++ LNew p cl :: h2')) by (rewrite many_app; cbn [news flat_map app length]; lia).
      replace (h1 ++ LNew p cl :: h2' ++ [l]) with ((h1 ++ LNew p cl :: h2') ++ [l]) by now rewrite <- app_assoc.
      rewrite run_snoc. destruct (step_report _ _ l _ Hp2 I Hx) as [A B].
      assert (Eh : h = (h1 ++ LNew p cl :: h2') ++ l :: r). { rewrite E, E2. now repeat (rewrite <- app_assoc; cbn [app]). }
      destruct R as [(op & Ho & ->) | [Hno ->]].
      + rewrite (A op) by (rewrite Eh in Ho; now apply says_report_prefix in Ho). rewrite (IH (l :: r) (eq_trans E2 (eq_sym (app_assoc _ [l] r))) _ Hs).
        rewrite <- configure_snoc. cbn [app]. now rewrite <- app_assoc.
      + rewrite B; [apply (IH (l :: r)); [now rewrite E2, <- app_assoc|exact Hs]|]. intros op Ho. apply (Hno op). rewrite Eh. now apply says_report_prefix. }
  rewrite E. apply (G [] h2); [now rewrite app_nil_r|exact Hs].
Qed.
Print Assumptions C171_settings.

(** What was said is determined. *)
Theorem C171_said : forall h x ls, proper h -> exists ops, said h x ls ops /\ forall ops', said h x ls ops' -> ops' = ops.
Proof.
  intros h x ls Hp. induction ls as [|l ls (ops & IH & U)].
  - exists []. split; [constructor|]. intros o H. now inversion H.
  - destruct (says_dec h x l Hp) as [(op & H) | H].
    + exists (op :: ops). split; [now constructor|]. intros o Ho. inversion Ho; subst; [|exfalso; eapply H2; eauto]. now rewrite (U ops0), (says_fun h x l op op0).
    + exists ops. split; [now apply said_no|]. intros o Ho. inversion Ho; subst; [exfalso; eapply H; eauto|now apply U].
Qed.
Print Assumptions C171_said.

(** uvm_top *)
Theorem C171_top : forall cl0 h ops, proper h -> said h 0 h ops -> hand (fst (run cl0 h)) 0 = configure (cl0 ++ ops).
Proof.
  intros cl0 h ops Hp Hs.
  assert (G : forall r h', h = h' ++ r -> forall ops, said h 0 h' ops -> hand (fst (run cl0 h')) 0 = configure (cl0 ++ ops)).
  { intros r h'. revert r. clear Hs ops. induction h' as [|l h' IH] using rev_ind; intros r E ops Hs.
    - inversion Hs; subst. now rewrite app_nil_r.
    - apply said_snoc in Hs. destruct Hs as (ops' & Hs & R). assert (Hp2 : proper (h' ++ [l])) by (rewrite E in Hp; now apply proper_prefix in Hp).
      assert (Hp3 := proper_prefix _ _ Hp2). destruct (inv_run cl0 _ Hp3) as [I _]. assert (Hx : 0 < many h') by (unfold many; lia).
      rewrite run_snoc. destruct (step_report _ _ l _ Hp2 I Hx) as [A B]. assert (Eh : h = h' ++ l :: r) by now rewrite E, <- app_assoc.
      destruct R as [(op & Ho & ->) | [Hno ->]].
      + rewrite (A op) by (rewrite Eh in Ho; now apply says_report_prefix in Ho). rewrite (IH (l :: r) Eh _ Hs). rewrite <- configure_snoc. now rewrite <- app_assoc.
      + rewrite B; [now apply (IH (l :: r))|]. intros op Ho. apply (Hno op). rewrite Eh. now apply says_report_prefix. }
  apply (G [] h); [now rewrite app_nil_r|exact Hs].
Qed.
Print Assumptions C171_top.

(** In terms of the settings in force: verbosity, action, file, severity *)
Theorem C171_in_force : forall cl0 h h1 p cl h2 x ops sev id, proper h -> made h h1 p cl h2 x -> said h x h2 ops ->
  let s := fst (run cl0 h) in
  let told := HVerb (get_verbosity_level (hand (fst (run cl0 h1)) p) INFO 0) :: cl ++ ops in
  get_verbosity_level (hand s x) sev id = level_in_force told sev id /\
  get_action (hand s x) sev id = action_in_force told sev id /\
  get_file_handle (hand s x) sev id = file_found told sev id.
Proof.
  intros cl0 h h1 p cl h2 x ops sev id Hp Hm Hs s told. unfold s. rewrite (C171_settings cl0 h h1 p cl h2 x ops Hp Hm Hs). fold told.
  split; [apply level_ok|]. split; [apply C47_action|apply C47_file_found].
Qed.
Print Assumptions C171_in_force.

(** No call runs forever. *)
Theorem C171_ends : forall cl0 h, proper h -> ~ In OLoop (snd (run cl0 h)).
Proof. intros cl0 h Hp. now apply inv_run. Qed.
Print Assumptions C171_ends.

Example C171_example :
  let h := [LNew 0 []; LNew 1 []; LReport 0 (HIdAct 5 1%Z); LReportHier 1 (HIdAct 5 7%Z); LNew 2 []; LReport 2 (HSevAct 2 3%Z)] in
  let s := fst (run [] h) in
  proper h /\ made h [LNew 0 []] 1 [] (skipn 2 h) 2 /\ said h 2 (skipn 2 h) [HIdAct 5 7%Z; HSevAct 2 3%Z] /\
  map (fun x => get_action (hand s x) 2 5) [0; 1; 2; 3] = [1; 7; 7; 5]%Z /\ map (fun x => get_action (hand s x) 2 6) [0; 1; 2; 3] = [5; 5; 3; 5]%Z.
Proof.
  cbn zeta. split; [now apply properb_ok|]. split; [split; reflexivity|]. split; [|split; vm_compute; reflexivity]. cbn [skipn].
  apply said_no; [intros op H; inversion H|]. apply said_yes; [apply says_above; [|repeat split; discriminate]|].
  - apply under_child with 1; [split; [lia|reflexivity]|constructor].
  - apply said_no; [intros op H; inversion H|]. apply said_yes; constructor.
Qed.

(** ** C172 *)
Definition quiet_in (i : nat) (k : handler) : Prop := id_verb k i = None /\ forall s, si_verb k s i = None.
Lemma quiet_set i op k : about i op = false -> quiet_in i k -> quiet_in i (hset k op).
Proof.
  intros Ha [H1 H2]. destruct k as [v iv sv sa ia sia so sio f sf idf sif]. unfold quiet_in in *. cbn [id_verb si_verb] in *.
  destruct op; cbn [hset id_verb si_verb about] in *; try (split; assumption).
  - split; [|exact H2]. apply Nat.eqb_neq in Ha. rewrite upd_other; auto.
  - split; [exact H1|]. intros s. apply Nat.eqb_neq in Ha. unfold upd2. destruct (Nat.eq_dec s sev) as [->|Hn]; [rewrite upd_same, upd_other; auto|now rewrite upd_other].
Qed.
Lemma quiet_sets i ops k : none_about i ops -> quiet_in i k -> quiet_in i (fold_left hset ops k).
Proof.
  revert k. induction ops as [|op ops IH]; intros k H Hk; [exact Hk|]. cbn [fold_left]. apply IH; [intros o Ho; apply H; now right|]. apply quiet_set; [apply H; now left|exact Hk].
Qed.
Lemma verb_set op k : general op = false -> h_verb (hset k op) = h_verb k.
Proof. destruct k. destruct op; cbn; intros; try reflexivity; discriminate. Qed.
Lemma verb_sets ops k : none_general ops -> h_verb (fold_left hset ops k) = h_verb k.
Proof. revert k. induction ops as [|op ops IH]; intros k H; [reflexivity|]. cbn [fold_left]. rewrite IH by (intros o Ho; apply H; now right). apply verb_set. apply H. now left. Qed.
Lemma says_op h x l op : says_report h x l op -> In op (ops_of l).
Proof. intros H. inversion H; subst; now left. Qed.
Lemma last_new h p cl x : x < many (h ++ [LNew p cl]) -> x < many h \/ x = many h.
Proof. rewrite many_snoc. lia. Qed.

Lemma quiet_run cl0 i h : proper h -> none_about i cl0 -> (forall l, In l h -> none_about i (ops_of l)) ->
  forall x, x < many h -> quiet_in i (hand (fst (run cl0 h)) x).
Proof.
  intros Hp H0. induction h as [|l h IH] using rev_ind; intros Hl x Hx.
  - apply quiet_sets; [exact H0|]. split; reflexivity.
  - rewrite run_snoc. assert (Hp' := proper_prefix _ _ Hp). destruct (inv_run cl0 h Hp') as [I _].
    assert (IH' : forall x, x < many h -> quiet_in i (hand (fst (run cl0 h)) x)) by (apply IH; [exact Hp'|]; intros l' Hl'; apply Hl, in_or_app; now left).
    assert (Hll : none_about i (ops_of l)) by (apply Hl, in_or_app; right; now left).
    destruct (le_lt_dec (many h) x) as [Hge|Hlt].
    + rewrite many_snoc in Hx. destruct l; try lia. assert (x = many h) by lia. subst x. cbn [step fst]. unfold create. cbn zeta. cbn [hand].
      rewrite <- (I_size h _ I), upd_same. apply quiet_sets; [exact Hll|]. split; reflexivity.
    + destruct (step_report h _ l x Hp I Hlt) as [A B]. destruct (says_dec h x l Hp') as [(op & Ho) | Ho]; [rewrite (A op Ho)|rewrite (B Ho)]; [|now apply IH'].
      apply quiet_set; [apply Hll; now apply says_op in Ho|now apply IH'].
Qed.

(** A level set for a component and everything below it is the level of all of them, and of
    those created there later, until another general level is set - for ids without settings of
    their own; there must be no setting for the empty id. *)
Theorem C172_level : forall cl0 h1 a v h2 x sev id, let h := h1 ++ LReportHier a (HVerb v) :: h2 in
  proper h -> none_about id cl0 -> none_about 0 cl0 ->
  (forall l, In l h -> none_about id (ops_of l) /\ none_about 0 (ops_of l)) ->
  (forall l, In l h2 -> none_general (ops_of l)) -> under h a x -> x < many h ->
  get_verbosity_level (hand (fst (run cl0 h)) x) sev id = v.
Proof.
  intros cl0 h1 a v h2 x sev id h Hp Hc1 Hc2 Hl Hg Hu Hx.
  assert (Q : forall y, y < many h -> h_verb (hand (fst (run cl0 h)) y) = v \/ ~ under h a y).
  { clear x Hu Hx. unfold h in *. clear h. induction h2 as [|l h2 IH] using rev_ind; intros x Hx.
    - assert (Hp' := proper_prefix _ _ Hp). destruct (inv_run cl0 h1 Hp') as [I _]. rewrite run_snoc. rewrite many_snoc in Hx.
      destruct (step_report h1 _ _ x Hp I Hx) as [A B]. destruct (under_dec h1 a x Hp') as [H|H].
      + left. rewrite (A (HVerb v)) by now constructor. destruct (hand (fst (run cl0 h1)) x). reflexivity.
      + right. intros H'. apply H. apply (under_prefix h1 [LReportHier a (HVerb v)] a x Hp' Hx) in H'. exact H'.
    - set (h := h1 ++ LReportHier a (HVerb v) :: h2) in *. replace (h1 ++ LReportHier a (HVerb v) :: h2 ++ [l]) with (h ++ [l]) in * by (unfold h; now rewrite <- app_assoc).
      assert (Hp' := proper_prefix _ _ Hp). destruct (inv_run cl0 h Hp') as [I _]. rewrite run_snoc.
      assert (IH' : forall x, x < many h -> h_verb (hand (fst (run cl0 h)) x) = v \/ ~ under h a x).
      { apply IH; [exact Hp'| |]; intros l' Hl'; [apply Hl, in_or_app; now left|apply Hg, in_or_app; now left]. }
      assert (Hll : none_general (ops_of l)) by (apply Hg, in_or_app; right; now left).
      destruct (le_lt_dec (many h) x) as [Hge|Hlt].
      + rewrite many_snoc in Hx. destruct l; try lia. assert (x = many h) by lia. subst x. cbn [step fst]. unfold create. cbn zeta. cbn [hand].
        rewrite <- (I_size h _ I), upd_same. rewrite verb_sets by exact Hll. cbn [hset handler0 initialize h_verb].
        pose proof (proper_target h (LNew p cl) [] Hp) as Ht. cbn [target] in Ht.
        destruct (under_dec (h ++ [LNew p cl]) a (many h) Hp) as [H|H]; [|right; now rewrite (I_size h _ I)]. left.
        assert (Hup : under h a p).
        { inversion H as [E|q y Hq Hu E].
          - exfalso. assert (a < many h1) by (unfold h in Hp'; now apply (proper_target h1 (LReportHier a (HVerb v)) h2)). unfold h in E. rewrite many_app in E. lia.
          - clear E y. destruct Hq as [_ Hq]. rewrite news_app in Hq. unfold many in Hq. replace (S (length (news h)) - 1) with (length (news h)) in Hq by lia.
            rewrite nth_error_app2, Nat.sub_diag in Hq by lia. cbn in Hq. injection Hq as <-. now apply (under_prefix h [LNew p cl]) in Hu. }
        destruct (IH' p Ht) as [E|N]; [|contradiction].
        destruct (quiet_run cl0 0 h Hp' Hc2 (fun l' Hl' => proj2 (Hl l' (in_or_app _ _ _ (or_introl Hl')))) p Ht) as [Q1 Q2].
        unfold get_verbosity_level. now rewrite Q1, Q2.
      + destruct (step_report h _ l x Hp I Hlt) as [A B]. destruct (IH' x Hlt) as [E|N].
        * left. destruct (says_dec h x l Hp') as [(op & Ho) | Ho]; [rewrite (A op Ho)|now rewrite (B Ho)]. rewrite verb_set; [exact E|]. apply Hll. now apply says_op in Ho.
        * right. intros H. apply N. now apply (under_prefix h [l]) in H. }
  destruct (Q x Hx) as [E|N]; [|contradiction].
  destruct (quiet_run cl0 id h Hp Hc1 (fun l Hl' => proj1 (Hl l Hl')) x Hx) as [Q1 Q2]. unfold get_verbosity_level. now rewrite Q1, Q2.
Qed.
Print Assumptions C172_level.

(** A setting for the empty id becomes the general level of the components created below. *)
Theorem C172_empty_id_limit : exists h, proper h /\
  get_verbosity_level (hand (fst (run [] h)) 0) INFO 7 = 200%Z /\ get_verbosity_level (hand (fst (run [] h)) 1) INFO 7 = 500%Z.
Proof.
  exists [LReport 0 (HIdVerb 0 500%Z); LNew 0 []]. split; [now apply properb_ok|vm_compute; auto].
Qed.
Print Assumptions C172_empty_id_limit.

Example C172_example :
  let h := [LNew 0 []; LNew 0 []; LReportHier 1 (HVerb 400%Z); LNew 1 []; LNew 3 []; LReport 3 (HIdVerb 9 10%Z)] in
  let s := fst (run [HVerb 300%Z] h) in
  map (fun x => get_verbosity_level (hand s x) INFO 7) [0; 1; 2; 3; 4] = [300; 400; 300; 400; 400]%Z.
Proof. vm_compute. reflexivity. Qed.

(** ** C173 *)
Lemma last_track {V W} (says : label -> V -> Prop) (val : list label -> W) (inj : V -> W) ls :
  (forall ls' l r, ls = ls' ++ l :: r -> (forall v, says l v -> val (ls' ++ [l]) = inj v) /\ ((forall v, ~ says l v) -> val (ls' ++ [l]) = val ls')) ->
  forall o, last_said says ls o -> val ls = match o with Some v => inj v | None => val [] end.
Proof.
  intros H o Ho.
  assert (N : forall ls1 ls2 r, ls = ls1 ++ ls2 ++ r -> (forall l v, In l ls2 -> ~ says l v) -> val (ls1 ++ ls2) = val ls1).
  { clear Ho o. intros ls1 ls2. induction ls2 as [|l ls2 IH] using rev_ind; intros r E Hn; [now rewrite app_nil_r|].
    rewrite app_assoc. rewrite (proj2 (H (ls1 ++ ls2) l r ltac:(rewrite E; now repeat (rewrite <- app_assoc; cbn [app])))).
    - apply (IH ([l] ++ r)); [rewrite E; now repeat (rewrite <- app_assoc; cbn [app])|]. intros l' v Hl'. apply Hn, in_or_app. now left.
    - intros v. apply Hn, in_or_app. right. now left. }
  inversion Ho; subst.
  - apply (N [] ls []); [now rewrite app_nil_r|assumption].
  - replace (ls1 ++ l :: ls2) with ((ls1 ++ [l]) ++ ls2) by now rewrite <- app_assoc.
    rewrite (N (ls1 ++ [l]) ls2 []); [|now rewrite <- app_assoc, app_nil_r|assumption]. now apply (proj1 (H ls1 l ls2 eq_refl)).
Qed.
Lemma last_exists {V} (says : label -> V -> Prop) ls : (forall l, (exists v, says l v) \/ forall v, ~ says l v) -> exists o, last_said says ls o.
Proof.
  intros D. induction ls as [|l ls (o & IH)] using rev_ind; [exists None; constructor; intros ? ? []|]. destruct (D l) as [(v & H) | H].
  - exists (Some v). apply last_some; [exact H|]. intros ? ? [].
  - exists o. inversion IH; subst.
    + apply last_none. intros l' v Hl'. apply in_app_iff in Hl'. destruct Hl' as [Hl' | [<- | []]]; auto.
    + rewrite <- app_assoc. cbn [app]. apply last_some; [assumption|]. intros l' v' Hl'. apply in_app_iff in Hl'. destruct Hl' as [Hl' | [<- | []]]; auto.
Qed.
Lemma made_step h h1 p cl h2 x ls' l r : proper h -> made h h1 p cl h2 x -> h2 = ls' ++ l :: r ->
  proper ((h1 ++ LNew p cl :: ls') ++ [l]) /\ proper (h1 ++ LNew p cl :: ls') /\ x < many (h1 ++ LNew p cl :: ls') /\ h = (h1 ++ LNew p cl :: ls') ++ l :: r /\
  h1 ++ LNew p cl :: ls' ++ [l] = (h1 ++ LNew p cl :: ls') ++ [l].
Proof.
  intros Hp [E ->] E2. assert (Eh : h = (h1 ++ LNew p cl :: ls') ++ l :: r). { rewrite E, E2. now repeat (rewrite <- app_assoc; cbn [app]). }
  assert (Hp2 : proper ((h1 ++ LNew p cl :: ls') ++ [l])). { apply proper_prefix with r. rewrite Eh in Hp. now rewrite <- app_assoc. }
  repeat split; auto; [now apply proper_prefix in Hp2| |now rewrite <- app_assoc]. rewrite many_app. cbn [news flat_map app length]. lia.
Qed.
Lemma dom_made cl0 h h1 p cl h2 x o : proper h -> made h h1 p cl h2 x -> last_said (says_domain h x) h2 o ->
  dom (fst (run cl0 h)) x = match o with Some d => d | None => dom (fst (run cl0 h1)) p end.
Proof.
  intros Hp Hm Hl. rewrite (proj1 Hm).
  rewrite (last_track (says_domain h x) (fun ls => dom (fst (run cl0 (h1 ++ LNew p cl :: ls))) x) (fun d => d) h2) with (o := o); [| |exact Hl].
  - destruct o; [reflexivity|]. rewrite run_snoc. cbn [step fst]. unfold create. cbn zeta. cbn [dom]. destruct Hm as [E ->].
    assert (Hp1 : proper h1) by (rewrite E in Hp; now apply proper_prefix in Hp). destruct (inv_run cl0 h1 Hp1) as [I _]. rewrite <- (I_size h1 _ I). apply upd_same.
  - intros ls' l r E. destruct (made_step h h1 p cl h2 x ls' l r Hp Hm E) as (Hp2 & Hp3 & Hx & Eh & Ea). rewrite Ea, run_snoc.
    destruct (inv_run cl0 _ Hp3) as [I _]. destruct (step_domain _ _ l x Hp2 I Hx) as [A B]. split.
    + intros d Hd. apply A. rewrite Eh in Hd. now apply says_domain_prefix in Hd.
    + intros Hn. apply B. intros d Hd. apply (Hn d). rewrite Eh. now apply says_domain_prefix.
Qed.
Lemma dom_top cl0 h o : proper h -> last_said (says_domain h 0) h o -> dom (fst (run cl0 h)) 0 = match o with Some d => d | None => 0 end.
Proof.
  intros Hp Hl. rewrite (last_track (says_domain h 0) (fun ls => dom (fst (run cl0 ls)) 0) (fun d => d) h) with (o := o); [now destruct o| |exact Hl].
  intros ls' l r E. assert (Hp2 : proper (ls' ++ [l])). { apply proper_prefix with r. rewrite E in Hp. now rewrite <- app_assoc. }
  assert (Hp3 := proper_prefix _ _ Hp2). destruct (inv_run cl0 _ Hp3) as [I _]. assert (Hx : 0 < many ls') by (unfold many; lia). rewrite run_snoc.
  destruct (step_domain _ _ l 0 Hp2 I Hx) as [A B]. split.
  - intros d Hd. apply A. rewrite E in Hd. now apply says_domain_prefix in Hd.
  - intros Hn. apply B. intros d Hd. apply (Hn d). rewrite E. now apply says_domain_prefix.
Qed.
Lemma in_domain_ok cl0 h x d : proper h -> in_domain h x d -> dom (fst (run cl0 h)) x = d.
Proof.
  intros Hp H. induction H.
  - now rewrite (dom_top cl0 h None).
  - now rewrite (dom_top cl0 h (Some d)).
  - now rewrite (dom_made cl0 h h1 p cl h2 x (Some d)).
  - rewrite (dom_made cl0 h h1 p cl h2 x None) by assumption. apply IHin_domain. destruct H as [E _]. rewrite E in Hp. now apply proper_prefix in Hp.
Qed.
Lemma made_exists h x : 0 < x -> x < many h -> exists h1 p cl h2, made h h1 p cl h2 x.
Proof.
  intros H0. induction h as [|l h IH] using rev_ind; intros Hx; [unfold many in Hx; cbn in Hx; lia|]. rewrite many_snoc in Hx.
  destruct (le_lt_dec (many h) x) as [Hge|Hlt].
  - destruct l; try lia. exists h, p, cl, []. split; [reflexivity|lia].
  - destruct (IH Hlt) as (h1 & p & cl & h2 & E & Ex). exists h1, p, cl, (h2 ++ [l]). split; [rewrite E; now rewrite <- app_assoc|exact Ex].
Qed.
Lemma dom_dec h x l : proper h -> (exists d, says_domain h x l d) \/ (forall d, ~ says_domain h x l d).
Proof.
  intros Hp. destruct l as [p cl|c op|c op|c d f|c ph i f|]; try (right; intros o H; now inversion H).
  destruct (Nat.eq_dec c x) as [->|Hn]; [left; exists d; constructor|]. destruct f; try (right; intros o Ho; inversion Ho; congruence).
  destruct (under_dec h c x Hp) as [H|H]; [left; exists d; now apply dom_above|right; intros o Ho; inversion Ho; congruence].
Qed.
Lemma imp_dec h x ph l : proper h -> (exists d, says_imp h x ph l d) \/ (forall d, ~ says_imp h x ph l d).
Proof.
  intros Hp. destruct l as [p cl|c op|c op|c d f|c q i f|]; try (right; intros o H; now inversion H).
  destruct (Nat.eq_dec q ph) as [->|Hq]; [|right; intros o Ho; inversion Ho; congruence].
  destruct (Nat.eq_dec c x) as [->|Hn]; [left; exists i; constructor|].
  destruct (under_dec h c x Hp) as [H|H]; [|right; intros o Ho; inversion Ho; congruence].
  destruct f; try (left; exists i; apply imp_above; [exact H|discriminate]). right; intros o Ho; inversion Ho; congruence.
Qed.

(** Every component has one domain: the last one given to it by set_domain on it, or with
    hier=True on a component above it, since it was created; otherwise the one its parent had
    when it was created; uvm_top starts in the uvm domain (0). *)
Theorem C173_domain : forall cl0 h x, proper h -> x < many h ->
  in_domain h x (dom (fst (run cl0 h)) x) /\ forall d, in_domain h x d -> d = dom (fst (run cl0 h)) x.
Proof.
  intros cl0 h x Hp Hx. split; [|intros d H; symmetry; now apply in_domain_ok].
  assert (G : forall n h x, length h <= n -> proper h -> x < many h -> exists d, in_domain h x d).
  { clear. induction n as [|n IH]; intros h x Hn Hp Hx.
    - destruct h; [|cbn in Hn; lia]. unfold many in Hx. cbn in Hx. assert (x = 0) by lia. subst x. exists 0. apply id_top_default. constructor. intros ? ? [].
    - destruct (Nat.eq_dec x 0) as [->|H0].
      + destruct (last_exists (says_domain h 0) h (fun l => dom_dec h 0 l Hp)) as ([d|] & H); [exists d; now apply id_top|exists 0; now apply id_top_default].
      + destruct (made_exists h x) as (h1 & p & cl & h2 & Hm); [lia|exact Hx|].
        destruct (last_exists (says_domain h x) h2 (fun l => dom_dec h x l Hp)) as ([d|] & H); [exists d; eapply id_said; eauto|].
        destruct Hm as [E Ex]. assert (Ht : p < many h1) by (rewrite E in Hp; now apply (proper_target h1 (LNew p cl) h2)).
        destruct (IH h1 p) as (d & Hd); [rewrite E, app_length in Hn; cbn in Hn; lia|rewrite E in Hp; now apply proper_prefix in Hp|exact Ht|].
        exists d. apply (id_parent h h1 p cl h2 x d); auto. now split. }
  destruct (G (length h) h x (le_n _) Hp Hx) as (d & Hd). now rewrite (in_domain_ok cl0 h x d Hp Hd).
Qed.
Print Assumptions C173_domain.

(** What a component executes in a phase: nothing outside of its domain and the common one;
    otherwise the implementation last given to it by set_phase_imp on it, or with a true hier on a
    component above it, since it was created; otherwise the phase's own. *)
Theorem C173_executes : forall cl0 h h1 p cl h2 x common pd ph d o, proper h -> made h h1 p cl h2 x ->
  in_domain h x d -> last_said (says_imp h x ph) h2 o ->
  (pd = common \/ pd = d -> executes (fst (run cl0 h)) common pd ph x = Some (match o with Some i => i | None => ph end)) /\
  (pd <> common -> pd <> d -> executes (fst (run cl0 h)) common pd ph x = None).
Proof.
  intros cl0 h h1 p cl h2 x common pd ph d o Hp Hm Hd Hl. unfold executes. rewrite (in_domain_ok cl0 h x d Hp Hd).
  assert (E : imps (fst (run cl0 h)) x ph = o).
  { rewrite (proj1 Hm).
    rewrite (last_track (says_imp h x ph) (fun ls => imps (fst (run cl0 (h1 ++ LNew p cl :: ls))) x ph) Some h2) with (o := o); [| |exact Hl].
    - destruct o; [reflexivity|]. rewrite run_snoc. cbn [step fst]. unfold create. cbn zeta. cbn [imps]. destruct Hm as [E ->].
      assert (Hp1 : proper h1) by (rewrite E in Hp; now apply proper_prefix in Hp). destruct (inv_run cl0 h1 Hp1) as [I _]. rewrite <- (I_size h1 _ I). now rewrite upd_same.
    - intros ls' l r E. destruct (made_step h h1 p cl h2 x ls' l r Hp Hm E) as (Hp2 & Hp3 & Hx & Eh & Ea). rewrite Ea, run_snoc.
      destruct (inv_run cl0 _ Hp3) as [I _]. destruct (step_imp _ _ l x ph Hp2 I Hx) as [A B]. split.
      + intros i Hi. apply A. rewrite Eh in Hi. now apply says_imp_prefix in Hi.
      + intros Hn. apply B. intros i Hi. apply (Hn i). rewrite Eh. now apply says_imp_prefix. }
  rewrite E. split.
  - intros [-> | ->]; rewrite Nat.eqb_refl, ?orb_true_r; reflexivity.
  - intros H1 H2. apply Nat.eqb_neq in H1, H2. now rewrite H1, H2.
Qed.
Print Assumptions C173_executes.

(** hier=1 is enough for set_phase_imp, but not for set_domain. A component created later has its
    parent's domain, but not its implementations. *)
Theorem C173_flag_limit :
  let s := fst (run [] [LNew 0 []; LNew 1 []; LDomain 1 4 FTruthy; LImp 1 8 9 FTruthy; LNew 1 []]) in
  map (dom s) [0; 1; 2; 3] = [0; 4; 0; 4] /\ map (fun x => imps s x 8) [0; 1; 2; 3] = [None; Some 9; Some 9; None].
Proof. vm_compute. auto. Qed.
Print Assumptions C173_flag_limit.

Example C173_example :
  let h := [LNew 0 []; LNew 1 []; LDomain 1 4 FTrue; LDomain 2 5 FFalse; LNew 2 []; LImp 0 8 9 FTrue; LImp 2 8 7 FFalse; LNew 1 []] in
  let s := fst (run [] h) in
  map (dom s) [0; 1; 2; 3; 4] = [0; 4; 5; 5; 4] /\
  map (executes s 77 5 8) [0; 1; 2; 3; 4] = [None; None; Some 7; Some 9; None] /\
  map (executes s 77 77 8) [0; 1; 2; 3; 4] = [Some 9; Some 9; Some 7; Some 9; Some 8].
Proof. vm_compute. auto. Qed.

(** ** C174 *)
Lemma front_filter g l x y : in_front l x y -> g x = true -> g y = true -> in_front (filter g l) x y.
Proof.
  intros (l1 & l2 & l3 & ->) Hx Hy. rewrite filter_app. cbn [filter]. rewrite Hx, filter_app. cbn [filter]. rewrite Hy.
  exists (filter g l1), (filter g l2), (filter g l3). reflexivity.
Qed.
(** When the simulation is ended by die(), pre_abort() of every component is called exactly once,
    that of a component after all those below it, and in the order of creation among siblings. *)
Theorem C174_pre_abort : forall cl0 h, proper h ->
  exists l, snd (step (fst (run cl0 h)) LDie) = map OAbort l /\ NoDup l /\ (forall x, In x l <-> under h 0 x) /\
    (forall a d, under h 0 a -> under h a d -> a <> d -> in_front l d a) /\
    (forall p x y a d, under h 0 p -> child_of h p x -> child_of h p y -> x < y -> under h x a -> under h y d -> in_front l a d).
Proof.
  intros cl0 h Hp. destruct (inv_run cl0 h Hp) as [I _]. set (s := fst (run cl0 h)) in *. destruct (inv_tree h s Hp I) as (T1 & T2 & T3).
  exists (post (kids s) (size s) 0). cbn [step snd]. rewrite (abort_post (kids s) (size s) T1); [|reflexivity|lia|rewrite (I_size h s I); unfold many; lia].
  assert (Hin : forall x, In x (post (kids s) (size s) 0) <-> under h 0 x).
  { intros x. rewrite post_in, <- (below_under h s 0 x I). split; [apply pre_below|]. apply (below_pre (kids s) (size s) T1); [lia|]. rewrite (I_size h s I). unfold many. lia. }
  assert (Ht : forall a b c, under h a b -> under h b c -> under h a c). { intros a b c Hab Hbc. apply (below_under h s) in Hab, Hbc; auto. apply (below_under h s); auto. now apply below_trans with b. }
  split; [reflexivity|]. split; [now apply (post_nodup (kids s) (size s) T1)|]. split; [exact Hin|]. split.
  - intros a d Ha Had Hne. apply (post_order (kids s) (size s) T1 T2); auto; [now apply Hin|apply Hin; now apply Ht with a|now apply (below_under h s)].
  - intros p x y a d Hu Hx Hy Hlt Ha Hd. apply (post_siblings (kids s) (size s) T1 T2 (size s) 0 p x y).
    + now apply (below_under h s).
    + rewrite (I_kids h s I). apply kids_of_in in Hx, Hy. unfold kids_of in *. apply filter_In in Hx, Hy. destruct Hx as [Hx1 Hx2]. destruct Hy as [Hy1 Hy2].
      apply in_seq in Hx1, Hy1. apply front_filter; [|exact Hx2|exact Hy2].
      assert (E : seq 1 (length (news h)) = seq 1 (x - 1) ++ x :: seq (S x) (y - S x) ++ y :: seq (S y) (1 + length (news h) - S y)).
      { replace (length (news h)) with ((x - 1) + (1 + ((y - S x) + (1 + (1 + length (news h) - S y))))) by lia. rewrite seq_app. f_equal.
        replace (1 + (x - 1)) with x by lia. cbn [Nat.add seq]. f_equal. rewrite seq_app. f_equal. replace (S x + (y - S x)) with y by lia. cbn [Nat.add seq]. f_equal. f_equal. lia. }
      rewrite E. eexists _, _, _. reflexivity.
    + apply Hin. apply Ht with x; [|exact Ha]. now apply under_child with p.
    + apply Hin. apply Ht with y; [|exact Hd]. now apply under_child with p.
    + now apply (below_under h s).
    + now apply (below_under h s).
Qed.
Print Assumptions C174_pre_abort.
(** Every component is below uvm_top. *)
Theorem C174_all : forall h x, proper h -> x < many h -> under h 0 x.
Proof.
  intros h x Hp. induction x as [x IH] using lt_wf_ind. intros Hx. destruct (Nat.eq_dec x 0) as [->|Hn]; [constructor|].
  destruct (nth_error (news h) (x - 1)) as [p|] eqn:E; [|apply nth_error_None in E; unfold many in Hx; lia].
  assert (Hc : child_of h p x) by (split; [lia|exact E]). destruct (child_older h p x Hp Hc). apply under_child with p; [exact Hc|]. apply IH; lia.
Qed.
Print Assumptions C174_all.
Example C174_example : snd (run [] [LNew 0 []; LNew 1 []; LNew 0 []; LNew 1 []; LNew 3 []; LDie]) = map OAbort [2; 4; 1; 5; 3; 0].
Proof. vm_compute. reflexivity. Qed.
