(** C44-C49, C83-C86: message reporting. *)
From Coq Require Import ZArith List Bool Lia.
From Verif Require Import Prelude ReportModel ReportSpec ReportProofs.
Import ListNotations.
Open Scope Z_scope.

Definition events (y : sys) (ops : list rop) : list ev := snd (run_machine rstep y ops).
Definition final (y : sys) (ops : list rop) : sys := fst (run_machine rstep y ops).

(** ** C44 *)

(** For every history of messages (any handlers, catchers, and catchers issuing
    messages of their own) and of count settings, each severity and each id count
    is the number of messages executed with it since it was last set. *)
Theorem C44_counts : forall y ops k,
  sev_cnt (srv (final y ops)) k =
    fold_left (sev_tally k) (events y ops) (sev_cnt (srv y) k) /\
  id_cnt (srv (final y ops)) k =
    fold_left (id_tally k) (events y ops) (id_cnt (srv y) k).
Proof. intros y ops k. destruct (Rcnt_run ops y) as [H1 H2]. split; [apply H1|apply H2]. Qed.
Print Assumptions C44_counts.

(** Over messages alone, starting from nothing, both families of counts add up to
    the number of messages executed. *)
Theorem C44_sums : forall rec raises ops ids,
  forallb is_msg ops = true -> NoDup ids ->
  let tr := events (sys0 rec raises) ops in
  let s := srv (final (sys0 rec raises) ops) in
  (forall m sh lg d, In (EExec m sh lg d) tr -> (m_sev m <= 3)%nat /\ In (m_id m) ids) ->
  sev_cnt s INFO + sev_cnt s WARNING + sev_cnt s ERROR + sev_cnt s FATAL = executed tr /\
  zsum (map (id_cnt s) ids) = executed tr.
Proof.
  intros rec raises ops ids Hm Hn tr s Hk.
  pose proof (msgs_no_set ops (sys0 rec raises) Hm) as Hset.
  destruct (Rcnt_run ops (sys0 rec raises)) as [H1 H2].
  split.
  - assert (E : zsum (map (sev_cnt s) [0;1;2;3]%nat) = executed tr).
    { rewrite (map_ext (sev_cnt s) (fun k => fold_left (sev_tally k) tr 0)) by apply H1.
      rewrite (sum_tally m_sev sev_tally (fun _ _ _ _ _ _ => eq_refl)) with (f := fun _ => 0).
      - reflexivity.
      - intros k acc e Hs He. destruct e; try reflexivity; discriminate.
      - repeat constructor; cbn; intuition discriminate.
      - exact Hset.
      - intros m sh lg d Hi. destruct (Hk m sh lg d Hi) as [Hle _].
        destruct (m_sev m) as [|[|[|[|n]]]]; cbn; try tauto. lia. }
    cbn in E. unfold INFO, WARNING, ERROR, FATAL. lia.
  - rewrite (map_ext (id_cnt s) (fun k => fold_left (id_tally k) tr 0)) by apply H2.
    rewrite (sum_tally m_id id_tally (fun _ _ _ _ _ _ => eq_refl)) with (f := fun _ => 0).
    + assert (Z : forall l : list nat, zsum (map (fun _ => 0) l) = 0)
        by (induction l; cbn; lia).
      rewrite Z. reflexivity.
    + intros k acc e Hs He. destruct e; try reflexivity; discriminate.
    + exact Hn.
    + exact Hset.
    + intros m sh lg d Hi. apply (Hk m sh lg d Hi).
Qed.
Print Assumptions C44_sums.

(** ** C45 *)

(** In any sequence of messages under a fixed maximum [n] from quit count [q0], a
    message (not to be recorded) ends the run exactly if its action says so, or if
    it is counted, n is not 0 and the count, this message included, has reached n.
    Missing: messages that are recorded; those raise an exception (C83). *)
Theorem C45_quit : forall y ops t1 m sh lg d t2,
  forallb is_msg ops = true ->
  events y ops = t1 ++ EExec m sh lg d :: t2 ->
  Z.testbit (m_act m) 6 = false ->
  let n := max_quit (srv y) in
  d = true <->
  Z.testbit (m_act m) 3 = true \/
  (Z.testbit (m_act m) 2 = true /\ n <> 0 /\
   n <= quit (srv y) + n_counted (t1 ++ [EExec m sh lg d])).
Proof.
  intros y ops t1 m sh lg d t2 Hm Htr H6 n.
  destruct (Rquit_run ops y Hm) as (_ & _ & _ & _ & _ & H & _).
  specialize (H t1 m sh lg d t2 Htr). rewrite H at 1. rewrite H6.
  cbn [negb andb]. fold n.
  rewrite orb_true_iff, !andb_true_iff, negb_true_iff, Z.eqb_neq, Z.leb_le. tauto.
Qed.
Print Assumptions C45_quit.

(** Hence, starting from quit count 0 with a maximum n > 0 and no message whose
    action is to exit: the run is ended for the first time by the n-th counted
    message, and until then by none. *)
Theorem C45_first : forall y ops t1 m sh lg d t2,
  forallb is_msg ops = true ->
  events y ops = t1 ++ EExec m sh lg d :: t2 ->
  Z.testbit (m_act m) 6 = false -> Z.testbit (m_act m) 3 = false ->
  quit (srv y) = 0 -> 0 < max_quit (srv y) ->
  (n_counted t1 < max_quit (srv y) - 1 -> d = false) /\
  (n_counted t1 = max_quit (srv y) - 1 -> d = Z.testbit (m_act m) 2).
Proof.
  intros y ops t1 m sh lg d t2 Hm Htr H6 H3 Hq Hn.
  pose proof (C45_quit y ops t1 m sh lg d t2 Hm Htr H6) as H. cbn zeta in H.
  rewrite n_counted_app, Hq in H.
  assert (Hc : n_counted [EExec m sh lg d] = if Z.testbit (m_act m) 2 then 1 else 0).
  { unfold n_counted; cbn [filter counted]. rewrite H6. now destruct (Z.testbit (m_act m) 2). }
  rewrite Hc in H. rewrite H3 in H.
  destruct (Z.testbit (m_act m) 2); split; intros Hlt.
  - destruct d; [|reflexivity]. destruct H as [H _]. specialize (H eq_refl).
    destruct H as [H|(_ & _ & H)]; [discriminate|lia].
  - apply H. right. split; [reflexivity|]. split; lia.
  - destruct d; [|reflexivity]. destruct H as [H _]. specialize (H eq_refl).
    destruct H as [H|(H & _)]; discriminate.
  - destruct d; [|reflexivity]. destruct H as [H _]. specialize (H eq_refl).
    destruct H as [H|(H & _)]; discriminate.
Qed.
Print Assumptions C45_first.

(** With maximum 0 no counted message ends the run. *)
Theorem C45_zero : forall y ops m sh lg d,
  forallb is_msg ops = true -> max_quit (srv y) = 0 ->
  In (EExec m sh lg d) (events y ops) -> d = true -> Z.testbit (m_act m) 3 = true.
Proof.
  intros y ops m sh lg d Hm H0 Hi Hd.
  destruct (Rquit_run ops y Hm) as (_ & _ & _ & _ & _ & H & _).
  apply in_split in Hi. destruct Hi as (t1 & t2 & E).
  specialize (H t1 m sh lg d t2 E). rewrite H0 in H. cbn [Z.eqb negb] in H.
  rewrite andb_false_r, andb_false_l, orb_false_r in H. rewrite Hd in H. symmetry in H.
  apply andb_true_iff in H. apply H.
Qed.
Print Assumptions C45_zero.

(** The end of the run is an exception, unless told otherwise; the quit count
    itself is the number of counted messages. *)
Theorem C45_counted : forall y ops,
  forallb is_msg ops = true -> max_quit (srv y) <> 0 ->
  quit (srv (final y ops)) = quit (srv y) + n_counted (events y ops).
Proof.
  intros y ops Hm H0. destruct (Rquit_run ops y Hm) as (_ & _ & _ & _ & H & _).
  unfold final, events. rewrite H. apply Z.eqb_neq in H0. now rewrite H0.
Qed.
Print Assumptions C45_counted.

Theorem C45_raises : forall s m s1 e,
  die_raises s = true -> execute s m = (s1, e, false) ->
  forall m' sh lg d, In (EExec m' sh lg d) e -> d = false.
Proof.
  intros s m s1 e Hd. unfold execute. cbn zeta.
  set (act := if record_all s then _ else _).
  destruct (bit act RM_RECORD); [discriminate|].
  set (a2 := if _ && (max_quit s <=? _) then _ else _). rewrite Hd, andb_true_r.
  intros H. injection H as _ <- H2. apply orb_false_iff in H2 as [H2 _].
  intros m' sh lg d [H|[]]. injection H as _ _ _ <-. exact H2.
Qed.
Print Assumptions C45_raises.

(** The maximum: the first setting that forbids overriding wins over all later
    ones; before that the last one counts; negative means 0. *)
Fixpoint max_spec (sets : list (Z * bool)) (cur : Z) : Z :=
  match sets with
  | [] => cur
  | (n, true) :: l => max_spec l (Z.max 0 n)
  | (n, false) :: _ => Z.max 0 n
  end.
Theorem C45_max : forall sets s, overridable s = true ->
  max_quit (fold_left (fun s p => set_max_quit_count s (fst p) (snd p)) sets s)
  = max_spec sets (max_quit s).
Proof.
  assert (X : forall sets s, overridable s = false ->
    max_quit (fold_left (fun s p => set_max_quit_count s (fst p) (snd p)) sets s) = max_quit s).
  { induction sets as [|[n ov] l IH]; intros s H; cbn [fold_left]; [reflexivity|].
    unfold set_max_quit_count at 2. rewrite H. now apply IH. }
  assert (C : forall n, (if n <? 0 then 0 else n) = Z.max 0 n)
    by (intro n; destruct (Z.ltb_spec n 0); lia).
  induction sets as [|[n ov] l IH]; intros s H; cbn [fold_left max_spec]; [reflexivity|].
  cbn [fst snd]. unfold set_max_quit_count at 2. rewrite H, C.
  destruct ov; [rewrite IH by reflexivity; reflexivity|].
  rewrite X by reflexivity. reflexivity.
Qed.
Print Assumptions C45_max.

Example C45_example :
  let y := Sys (Server (fun _ => 0) (fun _ => 0) 0 2 true false true) false
               (fun _ => 0) (fun _ => 0) in
  let e k := RMsg handler0 9 8 [] ERROR 1 k in
  let tr := events y [e 10%nat; RMsg handler0 9 8 [] WARNING 1 11; e 12%nat] in
  forallb is_msg [e 10%nat; RMsg handler0 9 8 [] WARNING 1 11; e 12%nat] = true /\
  tr = [EExec (Msg 2 1 5 10 0) 1 None false; EExec (Msg 1 1 1 11 0) 1 None false;
        EExec (Msg 2 1 5 12 0) 1 None true; EExn] /\
  executed tr = 3 /\ n_counted tr = 2.
Proof. vm_compute. auto. Qed.
Example C44_example :
  let y := sys0 false true in
  let ops := [RMsg handler0 9 8 [] ERROR 1 10; RSetSev 2 7; RMsg handler0 9 8 [] ERROR 1 10;
              RMsg (hset handler0 (HSevAct 1 0)) 9 8 [] WARNING 1 11] in
  sev_cnt (srv (final y ops)) 2 = 8 /\ sev_cnt (srv (final y ops)) 1 = 0 /\
  id_cnt (srv (final y ops)) 1 = 2.
Proof. vm_compute. auto. Qed.

(** ** C46 *)

(** The reporting methods of a component: for every history of its verbosity
    settings the message goes out iff its verbosity is at most the one in force. *)
Theorem C46_method : forall ops sev id verb,
  uvm_report (configure ops) sev id verb false = true <->
  (if verb =? -1 then default_verbosity sev else verb) <= level_in_force ops sev id.
Proof.
  intros ops sev id verb. unfold uvm_report, report_enabled, get_verbosity_level.
  rewrite p_si_verb, p_id_verb, p_verb. unfold level_in_force, first_of, dflt.
  rewrite Z.leb_le. destruct (last_of (f_si_verb sev id) ops); [reflexivity|].
  destruct (last_of (f_id_verb id) ops); reflexivity.
Qed.
Print Assumptions C46_method.

(** The macros use the settings of the root component instead ... *)
Theorem C46_macro_root : forall top h sev id verb,
  macro_report (configure top) h sev id verb = true <-> verb <= level_in_force top sev id.
Proof.
  intros top h sev id verb. unfold macro_report, report_enabled, get_verbosity_level.
  rewrite p_si_verb, p_id_verb, p_verb. unfold level_in_force, first_of, dflt, uvm_report.
  match goal with |- context [verb <=? ?x] => destruct (Z.leb_spec verb x) as [H|H] end.
  - split; [intros _|reflexivity].
    destruct (last_of (f_si_verb sev id) top); [exact H|].
    destruct (last_of (f_id_verb id) top); exact H.
  - split; [discriminate|]. intros H2. exfalso.
    destruct (last_of (f_si_verb sev id) top); [lia|].
    destruct (last_of (f_id_verb id) top); lia.
Qed.
Print Assumptions C46_macro_root.

(** ... so that a component's own setting is ignored by them, in both directions. *)
Theorem C46_macro_limit :
  (exists own, 300 <= level_in_force own INFO 1 /\
     macro_report (configure []) (configure own) INFO 1 300 = false) /\
  (exists own, ~ 200 <= level_in_force own INFO 1 /\
     macro_report (configure []) (configure own) INFO 1 200 = true).
Proof.
  split.
  - exists [HVerb 400]. split; [vm_compute; discriminate|reflexivity].
  - exists [HVerb 100]. split; [vm_compute; intro H; now apply H|reflexivity].
Qed.
Print Assumptions C46_macro_limit.

(** They behave as stated when root and component agree; the _context macros always. *)
Theorem C46_macro : forall top own sev id verb,
  level_in_force top sev id = level_in_force own sev id ->
  macro_report (configure top) (configure own) sev id verb = true <->
  verb <= level_in_force own sev id.
Proof. intros top own sev id verb H. rewrite C46_macro_root, H. reflexivity. Qed.
Print Assumptions C46_macro.

Theorem C46_context : forall ops sev id verb,
  macro_context (configure ops) sev id verb = true <-> verb <= level_in_force ops sev id.
Proof. intros ops sev id verb. apply (C46_macro_root ops (configure ops)). Qed.
Print Assumptions C46_context.

(** An error reported with the method and default verbosity is filtered too. *)
Theorem C46_errors : forall ops id,
  uvm_report (configure ops) ERROR id (-1) false = true <-> 100 <= level_in_force ops ERROR id.
Proof. intros ops id. apply (C46_method ops ERROR id (-1)). Qed.
Print Assumptions C46_errors.

Example C46_example :
  let ops := [HVerb 100; HIdVerb 1 300; HSidVerb 0 1 50; HIdVerb 2 400; HReset] in
  level_in_force ops 0 1 = 50 /\ level_in_force ops 1 1 = 300 /\
  level_in_force ops 0 2 = 400 /\ level_in_force ops 0 3 = 200 /\
  uvm_report (configure ops) 0 1 60 false = false /\
  uvm_report (configure ops) 1 1 60 false = true.
Proof. vm_compute. auto 10. Qed.

(** ** C47 *)
Theorem C47_action : forall ops sev id,
  get_action (configure ops) sev id = action_in_force ops sev id.
Proof.
  intros ops sev id. unfold get_action. rewrite p_si_act, p_id_act, p_sev_act.
  unfold action_in_force, first_of, dflt.
  destruct (last_of (f_si_act sev id) ops); [reflexivity|].
  destruct (last_of (f_id_act id) ops); reflexivity.
Qed.
Print Assumptions C47_action.

(** Files: the first setting that is not 0. *)
Theorem C47_file_found : forall ops sev id,
  get_file_handle (configure ops) sev id = file_found ops sev id.
Proof.
  intros ops sev id. unfold get_file_handle, get_severity_id_file.
  rewrite p_si_file, p_id_file, p_sev_file, p_file.
  unfold file_found, nz, first_of, dflt.
  destruct (last_of (f_si_file sev id) ops) as [[|p|p]|];
    destruct (last_of (f_id_file id) ops) as [[|p2|p2]|];
    destruct (last_of (f_sev_file sev) ops) as [[|p3|p3]|]; reflexivity.
Qed.
Print Assumptions C47_file_found.

(** That is the documented choice when nothing was set to 0. *)
Theorem C47_file : forall ops sev id,
  (forall op f, In op ops ->
     f_si_file sev id op = Some f \/ f_id_file id op = Some f \/ f_sev_file sev op = Some f ->
     f <> 0) ->
  get_file_handle (configure ops) sev id = file_in_force ops sev id.
Proof.
  intros ops sev id H. rewrite C47_file_found. unfold file_found, file_in_force.
  assert (L : forall f : hop -> option Z, (forall op z, In op ops -> f op = Some z -> z <> 0) ->
             nz (last_of f ops) = last_of f ops).
  { intros f Hf. assert (Y : forall z, last_of f ops = Some z -> z <> 0).
    { unfold last_of.
      enough (G : forall l acc, (forall op z, In op l -> f op = Some z -> z <> 0) ->
        (forall z, acc = Some z -> z <> 0) ->
        forall z, fold_left (fun acc op => match f op with Some a => Some a | None => acc end)
           l acc = Some z -> z <> 0).
      { apply (G ops None Hf). discriminate. }
      induction l as [|op l IH]; cbn [fold_left]; intros acc Hl Ha z E; [now apply Ha|].
      eapply IH; [|  |exact E].
      - intros op' z' Hin. apply Hl. now right.
      - intros z' E'. destruct (f op) eqn:Ef; [|now apply Ha].
        injection E' as <-. apply (Hl op z0); [now left|exact Ef]. }
    destruct (last_of f ops) as [[|p|p]|]; try reflexivity. now specialize (Y 0 eq_refl). }
  rewrite !L; [reflexivity| | |]; intros op z Hin E; apply (H op z Hin); auto.
Qed.
Print Assumptions C47_file.

(** An explicit setting to 0 (the screen only) is passed over. *)
Theorem C47_file_limit :
  exists ops, file_in_force ops ERROR 1 = 0 /\
    last_of (f_si_file ERROR 1) ops = Some 0 /\
    get_file_handle (configure ops) ERROR 1 = 7.
Proof. exists [HFile 7; HSidFile 2 1 0]. vm_compute. auto. Qed.
Print Assumptions C47_file_limit.

(** Settings do not disturb each other: a call about another question changes no
    answer. *)
Theorem C47_frame : forall ops op sev id,
  f_si_act sev id op = None -> f_id_act id op = None -> f_sev_act sev op = None ->
  get_action (configure (ops ++ [op])) sev id = get_action (configure ops) sev id.
Proof.
  intros ops op sev id H1 H2 H3. rewrite !C47_action. unfold action_in_force, last_of.
  rewrite !fold_left_app. cbn [fold_left]. now rewrite H1, H2, H3.
Qed.
Print Assumptions C47_frame.
Theorem C47_frame_file : forall ops op sev id,
  f_si_file sev id op = None -> f_id_file id op = None -> f_sev_file sev op = None ->
  f_file op = None ->
  get_file_handle (configure (ops ++ [op])) sev id = get_file_handle (configure ops) sev id.
Proof.
  intros ops op sev id H1 H2 H3 H4. rewrite !C47_file_found. unfold file_found, last_of.
  rewrite !fold_left_app. cbn [fold_left]. now rewrite H1, H2, H3, H4.
Qed.
Print Assumptions C47_frame_file.

Example C47_example :
  let ops := [HSevAct 1 3; HIdAct 1 4; HSidAct 1 1 6; HFile 5; HIdFile 1 8; HSevFile 2 9] in
  action_in_force ops 1 1 = 6 /\ action_in_force ops 0 1 = 4 /\ action_in_force ops 1 2 = 3 /\
  action_in_force ops 2 2 = 5 /\ file_in_force ops 2 1 = 8 /\ file_in_force ops 2 2 = 9 /\
  get_file_handle (configure ops) 2 2 = 9 /\ get_file_handle (configure ops) 0 2 = 5.
Proof. vm_compute. auto 10. Qed.

(** ** C48 *)

(** The severity a message is processed with, provided the id has an override for
    this severity or none at all. Only one override is applied. *)
Theorem C48_override : forall ops sev id,
  last_of (f_si_ovr sev id) ops <> None \/ last_of (f_any_ovr id) ops = None ->
  override (configure ops) sev id = severity_in_force ops sev id.
Proof.
  intros ops sev id H. unfold override, severity_in_force.
  rewrite p_sev_ovr. rewrite <- p_si_ovr in H |- *. rewrite <- p_any_ovr in H.
  destruct (si_ovr (configure ops) id) as [p|].
  - destruct H as [H|H]; [|discriminate]. destruct (p sev); [reflexivity|contradiction].
  - cbn [first_of]. unfold dflt. now destruct (last_of (f_sev_ovr sev) ops).
Qed.
Print Assumptions C48_override.

(** Otherwise the severity override is lost. *)
Theorem C48_override_lost : forall ops sev id,
  last_of (f_si_ovr sev id) ops = None -> last_of (f_any_ovr id) ops <> None ->
  override (configure ops) sev id = sev.
Proof.
  intros ops sev id H1 H2. unfold override. rewrite <- p_si_ovr in H1.
  rewrite <- p_any_ovr in H2.
  destruct (si_ovr (configure ops) id) as [p|]; [now rewrite H1|contradiction].
Qed.
Print Assumptions C48_override_lost.

Theorem C48_override_limit :
  exists ops, severity_in_force ops ERROR 1 = WARNING /\
              override (configure ops) ERROR 1 = ERROR.
Proof. exists [HSevOvr 2 1; HSidOvr 1 1 0]. vm_compute. auto. Qed.
Print Assumptions C48_override_limit.

(** Messages not caught are executed with that severity (no catchers). *)
Theorem C48_executed : forall y h odd thr sev id body m sh lg d,
  In (EExec m sh lg d) (snd (process y h odd thr [] sev id body)) ->
  m_sev m = override h sev id /\ m_id m = id /\ m_body m = body /\
  m_file m = get_file_handle h (override h sev id) id.
Proof.
  intros y h odd thr sev id body m sh lg d. unfold process, all_catchers.
  cbn [catch_first]. set (s' := override h sev id).
  destruct (in_catcher y); cbn [m_act]; destruct (get_action h s' id =? 0);
    try (intros []); cbn [srv];
  match goal with |- context [execute ?s ?m0] =>
    destruct (execute_ev s m0) as (sh0 & lg0 & d0 & x0 & E & _); cbn zeta in E; rewrite E end;
  cbn [snd app]; (intros [H|H]; [injection H as <- _ _ _; cbn; auto|
    destruct x0; [destruct H as [H|[]]; discriminate|destruct H]]).
Qed.
Print Assumptions C48_executed.

Example C48_example :
  let ops := [HSevOvr 0 1; HSevOvr 1 2; HSidOvr 2 5 0; HSidOvr 2 5 1] in
  severity_in_force ops 0 3 = 1%nat /\ override (configure ops) 0 3 = 1%nat /\
  override (configure ops) 2 5 = 1%nat /\ override (configure ops) 2 6 = 2%nat /\
  last_of (f_any_ovr 3) ops = None.
Proof. vm_compute. auto 10. Qed.

(** ** C49 *)

(** A message processed outside a catcher: either an exception leaves the call, or
    the enabled catchers were called in order, each with what its predecessor left,
    until one caught it; it is executed iff none did and it still has an action.
    Missing: when exceptions happen, and explicit actions (below). *)
Theorem C49_order : forall y h odd thr q sev id body,
  in_catcher y = false ->
  let sev' := override h sev id in
  let m := Msg sev' id (get_action h sev' id) body (get_file_handle h sev' id) in
  let tr := snd (process y h odd thr q sev id body) in
  In EExn tr \/
  exists m' b e1,
    passes (fun s => get_action h s odd) (live 0 q) m (sees tr) m' b /\
    sees e1 = sees tr /\
    if b || (m_act m' =? 0) then tr = e1
    else exists a sh lg d, tr = e1 ++ [EExec (set_act m' a) sh lg d] /\
           (record_all (srv y) = false -> a = m_act m').
Proof.
  intros y h odd thr q sev id body Hy sev' m tr. unfold tr, process. fold sev'. fold m.
  pose proof (rel_all Rquit Rquit_nil Rquit_app) as HR.
  unfold all_catchers in *. rewrite Hy.
  assert (Hrec : record_all (fst (fst (fst (catch_first h odd thr (srv y) 0 q m))))
                 = record_all (srv y)).
  { apply (rel_first (fun s s' _ => record_all s' = record_all s)); try reflexivity.
    - intros s s1 s2 _ _ H1 H2. congruence.
    - intros s m0. destruct (execute_ev s m0) as (sh & lg & d & x & E & _). cbn zeta in E.
      now rewrite E. }
  destruct (catch_first h odd thr (srv y) 0 q m) as [[[s1 e] m1] r] eqn:Ec.
  cbn [fst] in Hrec.
  destruct (first_passes _ _ _ _ _ _ _ _ _ _ _ Ec) as [->|Hp].
  - left. cbn [snd]. apply in_or_app. right. now left.
  - destruct r.
    + destruct (m_act m1 =? 0) eqn:Ea.
      * right. exists m1, false, e. cbn [snd]. split; [exact Hp|]. split; [reflexivity|].
        rewrite Ea. reflexivity.
      * cbn [srv].
        destruct (execute_ev s1 m1) as (sh & lg & d & x & E & _). cbn zeta in E. rewrite E.
        cbn [snd]. destruct x.
        { left. apply in_or_app. right. apply in_or_app. right. now left. }
        right. exists m1, false, e. rewrite app_nil_r, sees_app, app_nil_r.
        split; [exact Hp|]. split; [reflexivity|]. rewrite Ea. cbn [orb].
        do 4 eexists. split; [reflexivity|]. intros Hr. rewrite Hrec, Hr. reflexivity.
    + right. exists m1, true, e. cbn [snd]. split; [exact Hp|]. split; reflexivity.
    + left. cbn [snd]. apply in_or_app. right. now left.
Qed.
Print Assumptions C49_order.

(** No exception when all callbacks of the object are catchers that issue nothing
    themselves and return THROW or CAUGHT, and the message itself raises none. *)
Theorem C49_no_exception : forall y h odd thr q sev id body,
  in_catcher y = false -> only_catchers q ->
  (forall f, In (Catcher true f) q -> quiet f) ->
  let tr := snd (process y h odd thr q sev id body) in
  In EExn tr -> exists e m, tr = e ++ snd (fst (execute (srv y) m)) ++ [EExn] /\
                           snd (execute (srv y) m) = true.
Proof.
  intros y h odd thr q sev id body Hy Ho Hq tr. unfold tr, process, all_catchers.
  rewrite Hy. set (m := Msg _ _ _ _ _).
  destruct (first_quiet h odd thr q Ho Hq (srv y) 0%nat m) as (e & m1 & r & E & Hr & He).
  rewrite E.
  assert (Hne : ~ In EExn e).
  { intros Hi. destruct (He _ Hi) as (j & mj & X). discriminate. }
  destruct r; [| |contradiction]; cbn [snd].
  - destruct (m_act m1 =? 0); [intros Hi; cbn in Hi; contradiction|]. cbn [srv].
    destruct (execute_ev (srv y) m1) as (sh & lg & d & x & E2 & _). cbn zeta in E2.
    rewrite E2. cbn [snd]. destruct x.
    + intros _. exists e, m1. rewrite E2. split; reflexivity.
    + intros Hi. apply in_app_or in Hi. destruct Hi as [Hi|[Hi|[]]]; [contradiction|discriminate].
  - intros Hi; cbn in Hi; contradiction.
Qed.
Print Assumptions C49_no_exception.

(** An action set explicitly by a catcher is not always the one executed: if it is
    the usual action of the old severity and the severity is changed as well. *)
Theorem C49_set_action_limit :
  let demote : catch_fn := fun m => ([], Msg INFO (m_id m) (Z.lor DISPLAY COUNT) (m_body m) (m_file m), VThrow) in
  snd (process (sys0 false true) handler0 9 8 [Catcher true demote] ERROR 1 3)
  = [ESees 0 (Msg ERROR 1 5 3 0); EExec (Msg INFO 1 1 3 0) 1 None false].
Proof. reflexivity. Qed.
Print Assumptions C49_set_action_limit.

(** A callback of another kind behind a catcher in the object's queue makes every
    message of the object raise an exception. *)
Theorem C49_other_callback_limit :
  let pass : catch_fn := fun m => ([], m, VThrow) in
  snd (process (sys0 false true) handler0 9 8 [Catcher true pass; Other true] INFO 1 3)
  = [ESees 0 (Msg INFO 1 1 3 0); EExn].
Proof. reflexivity. Qed.
Print Assumptions C49_other_callback_limit.

Example C49_example :
  let rename : catch_fn := fun m => ([], Msg (m_sev m) 7 (m_act m) (m_body m) (m_file m), VThrow) in
  let demote : catch_fn := fun m =>
    if Nat.eqb (m_id m) 7 then ([], Msg WARNING (m_id m) (m_act m) 4 (m_file m), VThrow)
    else ([], m, VThrow) in
  let eat : catch_fn := fun m => ([], m, if Nat.eqb (m_sev m) WARNING then VCaught else VThrow) in
  let q := [Other true; Catcher false eat; Catcher true rename; Catcher false eat; Catcher true demote] in
  snd (process (sys0 false true) handler0 9 8 q ERROR 1 3)
  = [ESees 2 (Msg ERROR 1 5 3 0); ESees 4 (Msg ERROR 7 5 3 0); EExec (Msg WARNING 7 1 4 0) 1 None false] /\
  snd (process (sys0 false true) handler0 9 8 (q ++ [Catcher true eat; Catcher true rename]) ERROR 1 3)
  = [ESees 2 (Msg ERROR 1 5 3 0); ESees 4 (Msg ERROR 7 5 3 0); ESees 5 (Msg WARNING 7 1 4 0)].
Proof. split; reflexivity. Qed.

(** ** C83: what is shown and logged *)
Theorem C83_shown : forall s m s1 e x m' sh lg d,
  execute s m = (s1, e, x) -> In (EExec m' sh lg d) e ->
  Z.testbit (m_act m') 6 = false ->
  sh = ((if Z.testbit (m_act m) 0 then 1 else 0) +
        (if Z.testbit (m_act m) 1 && Z.eqb (m_file m) 0 then 1 else 0))%nat /\
  lg = if Z.testbit (m_act m) 1 && negb (m_file m =? 0) && negb (m_file m =? 2147483649)
       then Some (m_file m) else None.
Proof.
  intros s m s1 e x m' sh lg d. unfold execute. cbn zeta.
  rewrite bit_record, bit_log, bit_display.
  destruct (record_all s).
  - rewrite Z.lor_spec. change (Z.testbit RM_RECORD 6) with true. rewrite orb_true_r.
    intros H. injection H as _ <- _. intros [H|[]]. injection H as <- _ _ _.
    cbn [set_act m_act]. rewrite Z.lor_spec.
    change (Z.testbit RM_RECORD 6) with true. rewrite orb_true_r. discriminate.
  - destruct (Z.testbit (m_act m) 6) eqn:E6.
    + intros H. injection H as _ <- _. intros [H|[]]. injection H as <- _ _ _.
      cbn [set_act m_act]. congruence.
    + remember (Z.testbit (m_act m) 1) as b1 eqn:Eb1.
      remember (Z.testbit (m_act m) 0) as b0 eqn:Eb0.
      intros H. injection H as _ <- _. intros [H|[]] _. injection H as <- <- <- <-.
      destruct b1; cbn [andb]; [|auto].
      destruct (Z.eqb_spec (m_file m) 0) as [->|Hn].
      * change (0 =? 2147483649) with false. cbn [negb andb]. auto.
      * cbn [negb andb]. rewrite andb_true_r, andb_false_r. auto.
Qed.
Print Assumptions C83_shown.

(** Displayed and logged without a file: shown twice. *)
Theorem C83_twice_limit :
  snd (process (sys0 false true) (configure [HSevAct INFO (Z.lor DISPLAY LOG)]) 9 8 [] INFO 1 3)
  = [EExec (Msg INFO 1 3 3 0) 2 None false].
Proof. reflexivity. Qed.
Print Assumptions C83_twice_limit.

(** A message to be recorded is counted, but neither shown nor logged nor does it
    end the run; the call raises. *)
Theorem C83_record : forall s m,
  record_all s = true \/ Z.testbit (m_act m) 6 = true ->
  exists m', snd (fst (execute s m)) = [EExec m' 0 None false] /\ snd (execute s m) = true.
Proof.
  intros s m H. unfold execute. cbn zeta. rewrite bit_record.
  assert (E : Z.testbit (if record_all s then Z.lor (m_act m) RM_RECORD else m_act m) 6 = true).
  { destruct (record_all s).
    - rewrite Z.lor_spec. apply orb_true_r.
    - destruct H; [discriminate|exact H]. }
  rewrite E. eexists. split; reflexivity.
Qed.
Print Assumptions C83_record.

(** ** C84: resetting the handler *)
Theorem C84_reset : forall ops sev id,
  last_of (f_si_act sev id) ops = None -> last_of (f_id_act id) ops = None ->
  last_of (f_si_verb sev id) ops = None -> last_of (f_id_verb id) ops = None ->
  last_of (f_si_file sev id) ops = None -> last_of (f_id_file id) ops = None ->
  last_of (f_sev_ovr sev) ops = None -> last_of (f_any_ovr id) ops = None ->
  let h := configure (ops ++ [HReset]) in
  get_action h sev id = get_action handler0 sev id /\
  get_verbosity_level h sev id = get_verbosity_level handler0 sev id /\
  get_file_handle h sev id = get_file_handle handler0 sev id /\
  override h sev id = sev.
Proof.
  intros ops sev id H1 H2 H3 H4 H5 H6 H7 H8 h.
  assert (L : forall A (f : hop -> option A), f HReset = None ->
            last_of f (ops ++ [HReset]) = last_of f ops).
  { intros A f Hf. unfold last_of. rewrite fold_left_app. cbn [fold_left]. now rewrite Hf. }
  assert (L2 : forall A (f : hop -> option A) a, f HReset = Some a ->
            last_of f (ops ++ [HReset]) = Some a).
  { intros A f a Hf. unfold last_of. rewrite fold_left_app. cbn [fold_left]. now rewrite Hf. }
  split; [|split; [|split]].
  - unfold h. rewrite C47_action. unfold action_in_force.
    rewrite !L, H1, H2 by reflexivity. cbn [first_of]. erewrite L2 by reflexivity.
    cbn [dflt]. symmetry. apply default_action_spec.
  - unfold h, get_verbosity_level. rewrite p_si_verb, p_id_verb, p_verb.
    rewrite !L, H3, H4 by reflexivity. erewrite L2 by reflexivity. reflexivity.
  - unfold h. rewrite C47_file_found. unfold file_found.
    rewrite (L _ (f_si_file sev id)), (L _ (f_id_file id)), H5, H6 by reflexivity.
    erewrite (L2 _ (f_sev_file sev)), (L2 _ f_file) by reflexivity. reflexivity.
  - unfold h. rewrite C48_override.
    + unfold severity_in_force. rewrite (L _ (f_sev_ovr sev)), H7 by reflexivity.
      assert (X : last_of (f_si_ovr sev id) (ops ++ [HReset]) = None).
      { rewrite L by reflexivity. rewrite <- p_si_ovr. rewrite <- p_any_ovr in H8.
        destruct (si_ovr (configure ops) id); [discriminate|reflexivity]. }
      now rewrite X.
    + right. rewrite L by reflexivity. exact H8.
Qed.
Print Assumptions C84_reset.

(** Settings made for an id, and overrides, survive a reset. *)
Theorem C84_survive : forall ops sev id,
  let h := configure (ops ++ [HReset]) in let h0 := configure ops in
  get_action h sev id = dflt (first_of (last_of (f_si_act sev id) ops) (last_of (f_id_act id) ops)) (get_action handler0 sev id) /\
  get_verbosity_level h sev id = dflt (first_of (last_of (f_si_verb sev id) ops) (last_of (f_id_verb id) ops)) (get_verbosity_level handler0 sev id) /\
  get_file_handle h sev id = dflt (first_of (nz (last_of (f_si_file sev id) ops)) (nz (last_of (f_id_file id) ops))) 0 /\
  override h sev id = override h0 sev id.
Proof.
  intros ops sev id h h0. assert (HH : h = initialize h0) by (unfold h, h0, configure; rewrite fold_left_app; cbn; now destruct (fold_left hset ops handler0)).
  rewrite <- (p_si_act ops), <- (p_id_act ops), <- (p_si_verb ops), <- (p_id_verb ops), <- (p_si_file ops), <- (p_id_file ops). fold h0. rewrite HH. clear. clearbody h0.
  split; [|split; [|split]].
  - unfold get_action. cbn. now destruct (si_act h0 sev id), (id_act h0 id).
  - unfold get_verbosity_level. cbn. now destruct (si_verb h0 sev id), (id_verb h0 id).
  - unfold get_file_handle, get_severity_id_file, nz. cbn. destruct (si_file h0 sev id) as [a|], (id_file h0 id) as [b|]; cbn; try (destruct a); cbn; try (destruct b); reflexivity.
  - reflexivity.
Qed.
Print Assumptions C84_survive.
Theorem C84_reset_limit :
  let h := configure [HIdAct 1 0; HIdVerb 1 0; HSevOvr 2 1; HReset] in
  get_action h INFO 1 = 0 /\ get_action handler0 INFO 1 = DISPLAY /\
  get_verbosity_level h INFO 1 = 0 /\ override h ERROR 2 = WARNING.
Proof. vm_compute. auto. Qed.
Print Assumptions C84_reset_limit.

Example C84_example :
  let ops := [HSevAct 1 0; HVerb 500; HFile 3; HIdAct 4 0] in
  get_action (configure ops) 1 1 = 0 /\ get_action (configure (ops ++ [HReset])) 1 1 = 1 /\
  last_of (f_id_act 1) ops = None.
Proof. vm_compute. auto. Qed.

(** ** C85: caught and demoted counters *)
Theorem C85_counters : forall y h odd thr q sev id body,
  in_catcher y = false ->
  let sev' := override h sev id in
  let m := Msg sev' id (get_action h sev' id) body (get_file_handle h sev' id) in
  let r := process y h odd thr q sev id body in
  in_catcher (fst r) = false ->
  exists m' b,
    passes (fun s => get_action h s odd) (live 0 q) m (sees (snd r)) m' b /\
    forall k,
      caught (fst r) k = caught y k +
        (if b && Nat.eqb k sev' && Nat.leb 1 k && Nat.leb k 3 then 1 else 0) /\
      demoted (fst r) k = demoted y k +
        (if Nat.ltb (m_sev m') k && Nat.eqb k sev' && Nat.leb 1 k && Nat.leb k 3 then 1 else 0).
Proof.
  intros y h odd thr q sev id body Hy sev' m r. unfold r, process. fold sev'. fold m.
  unfold all_catchers. rewrite Hy.
  destruct (catch_first h odd thr (srv y) 0 q m) as [[[s1 e] m1] res] eqn:Ec.
  destruct (first_passes _ _ _ _ _ _ _ _ _ _ _ Ec) as [->|Hp]; [discriminate|].
  assert (U : forall (c : bool) f k (z : nat -> Z),
     (if c && f then upd z sev' (z sev' + 1) else z) k
     = z k + (if f && Nat.eqb k sev' && c then 1 else 0)).
  { intros c f k z. destruct c, f; cbn [andb]; try lia.
    - rewrite andb_true_r. unfold upd. destruct (Nat.eqb_spec k sev'); subst; lia.
    - rewrite andb_false_r. lia. }
  assert (G : forall k c', c' = ((if Nat.leb 1 sev' && Nat.leb sev' 3 &&
                (match res with RCaught => true | _ => false end)
              then upd (caught y) sev' (caught y sev' + 1) else caught y) k) ->
     c' = caught y k + (if (match res with RCaught => true | _ => false end)
            && Nat.eqb k sev' && Nat.leb 1 k && Nat.leb k 3 then 1 else 0)).
  { intros k c' ->. rewrite U. f_equal.
    destruct (Nat.eqb_spec k sev'); [subst; now rewrite andb_assoc|].
    rewrite !andb_false_r. reflexivity. }
  assert (G2 : forall k c', c' = ((if Nat.leb 1 sev' && Nat.leb sev' 3 &&
                Nat.ltb (m_sev m1) sev'
              then upd (demoted y) sev' (demoted y sev' + 1) else demoted y) k) ->
     c' = demoted y k + (if Nat.ltb (m_sev m1) k
            && Nat.eqb k sev' && Nat.leb 1 k && Nat.leb k 3 then 1 else 0)).
  { intros k c' ->. rewrite U. f_equal.
    destruct (Nat.eqb_spec k sev'); [subst; now rewrite andb_assoc|].
    rewrite !andb_false_r. reflexivity. }
  destruct res.
  - destruct (m_act m1 =? 0).
    + intros _. exists m1, false. split; [exact Hp|]. intros k. split.
      * apply G. cbn [fst caught]. now rewrite andb_false_r.
      * apply G2. reflexivity.
    + cbn [srv]. destruct (execute_ev s1 m1) as (sh & lg & d & x & E & _). cbn zeta in E.
      rewrite E. intros _. exists m1, false. split.
      * cbn [snd]. rewrite !sees_app. cbn [sees]. destruct x; cbn [sees];
        rewrite !app_nil_r; exact Hp.
      * intros k. split.
        -- apply G. cbn [fst caught]. now rewrite andb_false_r.
        -- apply G2. reflexivity.
  - intros _. exists m1, true. split; [exact Hp|]. intros k. split.
    + apply G. cbn [fst caught]. rewrite andb_true_r. reflexivity.
    + apply G2. reflexivity.
  - discriminate.
Qed.
Print Assumptions C85_counters.

(** ** C86: a catcher that raises *)

(** Once an exception left a catcher, no catcher is ever called again. *)
Theorem C86_never_again : forall ops y,
  in_catcher y = true -> sees (events y ops) = [] /\ in_catcher (final y ops) = true.
Proof.
  induction ops as [|op ops IH]; intros y H; unfold events, final in *; cbn [run_machine].
  - now split.
  - assert (X : sees (snd (rstep y op)) = [] /\ in_catcher (fst (rstep y op)) = true).
    { destruct op; cbn [rstep]; try (split; [reflexivity|exact H]).
      unfold process, all_catchers. rewrite H.
      set (m := Msg _ _ _ _ _). destruct (m_act m =? 0); [split; [reflexivity|exact H]|].
      destruct (execute_ev (srv y) m) as (sh & lg & d & x & E & _). cbn zeta in E. rewrite E.
      split; [now destruct x|exact H]. }
    destruct (rstep y op) as [y1 e1]. cbn [fst snd] in X. destruct X as [X1 X2].
    destruct (IH y1 X2) as [I1 I2].
    destruct (run_machine rstep y1 ops) as [y2 e2]. cbn [fst snd] in *.
    split; [now rewrite sees_app, X1, I1|exact I2].
Qed.
Print Assumptions C86_never_again.

(** Such a state is reached by one failing catcher of one object; a second object's
    catcher, which catches everything, is then ignored. *)
Definition passes_on (e : centry) : Prop :=
  match e with
  | Catcher false _ | Other false => True
  | Catcher true g => forall m, fst (fst (g m)) = [] /\ snd (g m) = VThrow
  | Other true => False
  end.
Theorem C86_raise_sticks : forall y h odd thr q1 f q2 sev id body later,
  in_catcher y = false -> Forall passes_on q1 -> (forall m, snd (f m) = VRaises) ->
  let r := process y h odd thr (q1 ++ Catcher true f :: q2) sev id body in
  In EExn (snd r) /\ sees (events (fst r) later) = [].
Proof.
  intros y h odd thr q1 f q2 sev id body later Hy HP Hf r.
  assert (HR : forall q, Forall passes_on q -> forall s i m, snd (catch_rest h odd thr s i (q ++ Catcher true f :: q2) m) = RRaised).
  { clear - Hf. intros q HP. induction HP as [|e q He HP IH]; intros s i m; cbn [app catch_rest].
    - specialize (Hf m). destruct (f m) as [[l m1] v]. cbn [snd] in Hf. subst v. destruct (issue_all s (l ++ [])) as [[s1 e1] x1]. now destruct x1.
    - destruct e as [[|] g|[|]]; cbn [passes_on] in He; [|apply IH|destruct He|apply IH].
      destruct (He m) as [H1 H2]. destruct (g m) as [[l m1] v]. cbn [fst snd] in H1, H2. subst. cbn [app issue_all].
      specialize (IH s (S i) (fix_action h odd (m_sev m) m1)). destruct (catch_rest h odd thr s (S i) _ _) as [[[s2 e2] m2] r2]. exact IH. }
  assert (HF : forall q, Forall passes_on q -> forall s i m, snd (catch_first h odd thr s i (q ++ Catcher true f :: q2) m) = RRaised).
  { clear - HR. intros q HP. induction HP as [|e q He HP IH]; intros s i m; cbn [app catch_first]; [exact (HR [] (Forall_nil _) s i m)|].
    destruct e as [[|] g|[|]]; cbn [passes_on] in He; [|apply IH|destruct He|apply IH]. exact (HR (Catcher true g :: q) (Forall_cons (P := passes_on) (Catcher true g) He HP) s i m). }
  assert (HX : In EExn (snd r) /\ in_catcher (fst r) = true).
  { unfold r, process, all_catchers. rewrite Hy. set (m := Msg _ _ _ _ _). specialize (HF q1 HP (srv y) 0%nat m).
    destruct (catch_first h odd thr (srv y) 0 (q1 ++ Catcher true f :: q2) m) as [[[s1 e] m1] x]. cbn [snd] in HF. subst x.
    cbn. split; [apply in_or_app; right; now left|reflexivity]. }
  destruct HX as [H1 H2]. split; [exact H1|]. now apply C86_never_again.
Qed.
Print Assumptions C86_raise_sticks.
Theorem C86_limit :
  let bad : catch_fn := fun m => ([], m, VRaises) in
  let eat : catch_fn := fun m => ([], m, VCaught) in
  events (sys0 false true)
    [RMsg handler0 9 8 [Catcher true eat] WARNING 2 4;
     RMsg handler0 9 8 [Catcher true bad] INFO 1 3;
     RMsg handler0 9 8 [Catcher true eat] WARNING 2 4]
  = [ESees 0 (Msg WARNING 2 1 4 0);
     ESees 0 (Msg INFO 1 1 3 0); EExn; EExec (Msg WARNING 2 1 4 0) 1 None false].
Proof. reflexivity. Qed.
Print Assumptions C86_limit.

(** Without exceptions the state is never left behind. *)
Theorem C86_reset : forall y h odd thr q sev id body,
  in_catcher y = false -> ~ In EExn (snd (process y h odd thr q sev id body)) ->
  in_catcher (fst (process y h odd thr q sev id body)) = false.
Proof.
  intros y h odd thr q sev id body Hy. unfold process, all_catchers. rewrite Hy.
  set (m := Msg _ _ _ _ _).
  destruct (catch_first h odd thr (srv y) 0 q m) as [[[s1 e] m1] r].
  destruct r; cbn [fst snd].
  - destruct (m_act m1 =? 0); [reflexivity|]. cbn [srv in_catcher].
    destruct (execute s1 m1) as [[? ?] ?]. reflexivity.
  - reflexivity.
  - intros H. exfalso. apply H. apply in_or_app. right. now left.
Qed.
Print Assumptions C86_reset.
