From Coq Require Import ZArith List Bool Lia.
From Verif Require Import Prelude ReportModel ReportSpec.
Import ListNotations.
Open Scope Z_scope.

(** ** Settings *)

Lemma proj_fold {A} (p : handler -> A) (f : hop -> option A) :
  (forall h op, p (hset h op) = dflt (f op) (p h)) ->
  forall ops h, p (fold_left hset ops h) = dflt (last_of f ops) (p h).
Proof.
  intros Hp ops.
  enough (X : forall acc h, dflt (fold_left (fun acc op =>
      match f op with Some a => Some a | None => acc end) ops acc) (p h)
      = p (fold_left hset ops h) \/ exists a, acc = Some a).
  { intros h. destruct (X None h) as [E|(a & E)]; [now rewrite <- E|discriminate]. }
  enough (Y : forall acc h d, p h = dflt acc d ->
      p (fold_left hset ops h) = dflt (fold_left (fun acc op =>
      match f op with Some a => Some a | None => acc end) ops acc) d).
  { intros [a|] h; [right; now exists a|left]. symmetry. now apply Y. }
  induction ops as [|op ops IH]; intros acc h d E; cbn [fold_left]; [exact E|].
  apply IH. rewrite Hp. destruct (f op); [reflexivity|exact E].
Qed.

Lemma proj_fold_opt {A} (p : handler -> option A) (f : hop -> option A) :
  (forall h op, p (hset h op) = first_of (f op) (p h)) ->
  forall ops h, p (fold_left hset ops h) = first_of (last_of f ops) (p h).
Proof.
  intros Hp ops h.
  enough (Y : forall ops acc h d, p h = first_of acc d ->
      p (fold_left hset ops h) = first_of (fold_left (fun acc op =>
      match f op with Some a => Some a | None => acc end) ops acc) d).
  { now apply Y. }
  clear ops h. induction ops as [|op ops IH]; intros acc h d E; cbn [fold_left]; [exact E|].
  apply IH. rewrite Hp. destruct (f op); [reflexivity|exact E].
Qed.

Ltac setting :=
  intros [? ? ? ? ? ? ? ? ? ? ? ?] op; destruct op; try reflexivity;
  cbn; unfold both, upd2, upd;
  repeat match goal with |- context [Nat.eqb ?a ?b] => destruct (Nat.eqb_spec a b) end;
  subst; try reflexivity; try contradiction.

Lemma p_verb ops : h_verb (configure ops) = dflt (last_of f_verb ops) 200.
Proof. apply (proj_fold h_verb f_verb). setting. Qed.
Lemma p_id_verb ops i : id_verb (configure ops) i = last_of (f_id_verb i) ops.
Proof.
  unfold configure. rewrite (proj_fold_opt (fun h => id_verb h i) (f_id_verb i)) by setting.
  now destruct (last_of _ _).
Qed.
Lemma p_si_verb ops s i : si_verb (configure ops) s i = last_of (f_si_verb s i) ops.
Proof.
  unfold configure. rewrite (proj_fold_opt (fun h => si_verb h s i) (f_si_verb s i)) by setting.
  now destruct (last_of _ _).
Qed.

Lemma default_action_spec s :
  default_action s = match s with 2%nat => 5 | 3%nat => 9 | _ => 1 end.
Proof. destruct s as [|[|[|[|s]]]]; reflexivity. Qed.

Lemma p_sev_act ops s : sev_act (configure ops) s =
  dflt (last_of (f_sev_act s) ops) (match s with 2%nat => 5 | 3%nat => 9 | _ => 1 end).
Proof.
  unfold configure. rewrite (proj_fold (fun h => sev_act h s) (f_sev_act s)).
  - cbn [handler0 initialize sev_act]. now rewrite default_action_spec.
  - intros [? ? ? ? ? ? ? ? ? ? ? ?] op; destruct op; try reflexivity.
    + cbn. unfold upd. destruct (Nat.eqb s sev); reflexivity.
    + cbn. apply default_action_spec.
Qed.
Lemma p_id_act ops i : id_act (configure ops) i = last_of (f_id_act i) ops.
Proof.
  unfold configure. rewrite (proj_fold_opt (fun h => id_act h i) (f_id_act i)) by setting.
  now destruct (last_of _ _).
Qed.
Lemma p_si_act ops s i : si_act (configure ops) s i = last_of (f_si_act s i) ops.
Proof.
  unfold configure. rewrite (proj_fold_opt (fun h => si_act h s i) (f_si_act s i)) by setting.
  now destruct (last_of _ _).
Qed.
Lemma p_file ops : h_file (configure ops) = dflt (last_of f_file ops) 0.
Proof. apply (proj_fold h_file f_file). setting. Qed.
Lemma p_sev_file ops s : sev_file (configure ops) s = dflt (last_of (f_sev_file s) ops) 0.
Proof.
  unfold configure. rewrite (proj_fold (fun h => sev_file h s) (f_sev_file s)) by setting.
  reflexivity.
Qed.
Lemma p_id_file ops i : id_file (configure ops) i = last_of (f_id_file i) ops.
Proof.
  unfold configure. rewrite (proj_fold_opt (fun h => id_file h i) (f_id_file i)) by setting.
  now destruct (last_of _ _).
Qed.
Lemma p_si_file ops s i : si_file (configure ops) s i = last_of (f_si_file s i) ops.
Proof.
  unfold configure. rewrite (proj_fold_opt (fun h => si_file h s i) (f_si_file s i)) by setting.
  now destruct (last_of _ _).
Qed.
Lemma p_sev_ovr ops s : sev_ovr (configure ops) s = last_of (f_sev_ovr s) ops.
Proof.
  unfold configure. rewrite (proj_fold_opt (fun h => sev_ovr h s) (f_sev_ovr s)) by setting.
  now destruct (last_of _ _).
Qed.
Lemma p_si_ovr ops s i :
  match si_ovr (configure ops) i with Some p => p s | None => None end
  = last_of (f_si_ovr s i) ops.
Proof.
  unfold configure.
  rewrite (proj_fold_opt
    (fun h => match si_ovr h i with Some p => p s | None => None end) (f_si_ovr s i)).
  - now destruct (last_of _ _).
  - intros [? ? ? ? ? ? ? so ? ? ? ?] op; destruct op; try reflexivity.
    cbn. unfold both, upd.
    destruct (Nat.eqb_spec i id); [subst|now rewrite andb_false_r].
    rewrite andb_true_r. destruct (Nat.eqb s sev); [reflexivity|].
    now destruct (so id).
Qed.
Lemma p_any_ovr ops i :
  match si_ovr (configure ops) i with Some _ => Some tt | None => None end
  = last_of (f_any_ovr i) ops.
Proof.
  unfold configure.
  rewrite (proj_fold_opt
    (fun h => match si_ovr h i with Some p => Some tt | None => None end) (f_any_ovr i)).
  - now destruct (last_of _ _).
  - intros [? ? ? ? ? ? ? so ? ? ? ?] op; destruct op; try reflexivity.
    cbn. unfold upd. destruct (Nat.eqb_spec i id); [subst; reflexivity|reflexivity].
Qed.

(** ** Bits *)
Lemma bit_testbit a k : 0 <= k -> bit a (2 ^ k) = Z.testbit a k.
Proof.
  intros Hk. unfold bit. destruct (Z.eqb_spec (Z.land a (2 ^ k)) 0) as [E|E]; cbn.
  - symmetry. apply (f_equal (fun z => Z.testbit z k)) in E.
    rewrite Z.land_spec, Z.pow2_bits_true, andb_true_r, Z.bits_0 in E by exact Hk. exact E.
  - destruct (Z.testbit a k) eqn:Ek; [reflexivity|]. exfalso. apply E.
    apply Z.bits_inj'. intros n Hn. rewrite Z.land_spec, Z.bits_0.
    destruct (Z.eq_dec n k) as [->|Hnk]; [now rewrite Ek|].
    rewrite Z.pow2_bits_false by auto. apply andb_false_r.
Qed.
Lemma bit_count a : bit a COUNT = Z.testbit a 2.
Proof. apply (bit_testbit a 2). lia. Qed.
Lemma bit_exit a : bit a EXIT = Z.testbit a 3.
Proof. apply (bit_testbit a 3). lia. Qed.
Lemma bit_record a : bit a RM_RECORD = Z.testbit a 6.
Proof. apply (bit_testbit a 6). lia. Qed.
Lemma bit_display a : bit a DISPLAY = Z.testbit a 0.
Proof. apply (bit_testbit a 0). lia. Qed.
Lemma bit_log a : bit a LOG = Z.testbit a 1.
Proof. apply (bit_testbit a 1). lia. Qed.
Lemma bit_stop a : bit a STOP = Z.testbit a 5.
Proof. apply (bit_testbit a 5). lia. Qed.

(** ** Relations between the server before and after, and the events *)
Section Rel.
  Context (R : server -> server -> list ev -> Prop).
  Context (Rnil : forall s, R s s []).
  Context (Rapp : forall s s1 s2 e1 e2, R s s1 e1 -> R s1 s2 e2 -> R s s2 (e1 ++ e2)).
  Context (Rsee : forall s i m, R s s [ESees i m]).
  Context (Rexn : forall s, R s s [EExn]).
  Context (Rex : forall s m, R s (fst (fst (execute s m))) (snd (fst (execute s m)))).

  Lemma rel_issue l : forall s,
    R s (fst (fst (issue_all s l))) (snd (fst (issue_all s l))).
  Proof.
    induction l as [|m l IH]; intros s; cbn [issue_all]; [apply Rnil|].
    destruct (m_act m =? 0); [apply IH|].
    pose proof (Rex s m) as H.
    destruct (execute s m) as [[s1 e1] x1]. cbn [fst snd] in H.
    destruct x1; [exact H|].
    specialize (IH s1). destruct (issue_all s1 l) as [[s2 e2] x2]. cbn [fst snd] in *.
    now apply (Rapp s s1 s2).
  Qed.

  Lemma rel_cons s s1 i m e : R s s1 e -> R s s1 (ESees i m :: e).
  Proof. intros H. change (R s s1 ([ESees i m] ++ e)). now apply (Rapp s s s1). Qed.

  Lemma rel_rest h odd thr q : forall s i m,
    let r := catch_rest h odd thr s i q m in
    R s (fst (fst (fst r))) (snd (fst (fst r))).
  Proof.
    induction q as [|[[] f|[]] q IH]; intros s i m; cbn [catch_rest]; try apply Rnil; try apply IH.
    destruct (f m) as [[l m1] v].
    pose proof (rel_issue (l ++ match v with VUnknown => [thr_msg h thr] | _ => [] end) s) as H.
    destruct (issue_all s _) as [[s1 e1] x1]. cbn [fst snd] in H.
    destruct x1; [now apply rel_cons|].
    destruct v; try (now apply rel_cons).
    - specialize (IH s1 (S i) (fix_action h odd (m_sev m) m1)).
      destruct (catch_rest h odd thr s1 (S i) q _) as [[[s2 e2] m2] r]. cbn [fst snd] in *.
      apply rel_cons. now apply (Rapp s s1 s2).
    - specialize (IH s1 (S i) (fix_action h odd (m_sev m) m1)).
      destruct (catch_rest h odd thr s1 (S i) q _) as [[[s2 e2] m2] r]. cbn [fst snd] in *.
      apply rel_cons. now apply (Rapp s s1 s2).
  Qed.

  Lemma rel_first h odd thr q : forall s i m,
    let r := catch_first h odd thr s i q m in
    R s (fst (fst (fst r))) (snd (fst (fst r))).
  Proof.
    induction q as [|[[] f|[]] q IH]; intros s i m; cbn [catch_first]; try apply Rnil; try apply IH.
    apply rel_rest.
  Qed.

  Lemma rel_all y h odd thr q m :
    let r := all_catchers y h odd thr q m in
    R (srv y) (srv (fst (fst (fst r)))) (snd (fst (fst r))).
  Proof.
    unfold all_catchers. destruct (in_catcher y); [apply Rnil|].
    pose proof (rel_first h odd thr q (srv y) 0%nat m) as H. cbn zeta in H.
    destruct (catch_first h odd thr (srv y) 0 q m) as [[[s1 e] m1] r]. cbn [fst snd] in H.
    destruct r; exact H.
  Qed.

  Lemma rel_process y h odd thr q sev id body :
    R (srv y) (srv (fst (process y h odd thr q sev id body)))
      (snd (process y h odd thr q sev id body)).
  Proof.
    unfold process.
    set (m := Msg _ _ _ _ _). pose proof (rel_all y h odd thr q m) as H. cbn zeta in H.
    destruct (all_catchers y h odd thr q m) as [[[y1 e1] m1] r]. cbn [fst snd] in H.
    destruct r; cbn [fst snd].
    - destruct (m_act m1 =? 0); [exact H|].
      pose proof (Rex (srv y1) m1) as H2.
      destruct (execute (srv y1) m1) as [[s2 e2] x]. cbn [fst snd srv] in *.
      apply (Rapp _ (srv y1)); [exact H|].
      destruct x; [|now rewrite app_nil_r]. now apply (Rapp _ s2).
    - exact H.
    - now apply (Rapp _ (srv y1)).
  Qed.
End Rel.

(** Every execution yields exactly one event, for that message. *)
Lemma execute_ev s m :
  exists sh lg d x,
    let m' := set_act m (if record_all s then Z.lor (m_act m) RM_RECORD else m_act m) in
    execute s m =
    (set_counts s (upd (sev_cnt s) (m_sev m) (sev_cnt s (m_sev m) + 1))
       (upd (id_cnt s) (m_id m) (id_cnt s (m_id m) + 1))
       (if counted (EExec m' sh lg d) && negb (max_quit s =? 0) then quit s + 1 else quit s),
     [EExec m' sh lg d], x) /\
    d = negb (Z.testbit (m_act m') 6) &&
        (Z.testbit (m_act m') 3 ||
         (Z.testbit (m_act m') 2 && negb (max_quit s =? 0) && (max_quit s <=? quit s + 1))).
Proof.
  unfold execute. cbn zeta.
  set (act := if record_all s then _ else _).
  cbn [counted set_act m_act].
  rewrite bit_record, bit_count, bit_exit.
  destruct (Z.testbit act 6) eqn:E6.
  - do 4 eexists. rewrite andb_false_r. cbn [negb andb]. split; reflexivity.
  - rewrite andb_true_r. do 4 eexists. split; [reflexivity|]. cbn [negb andb].
    destruct (Z.testbit act 2) eqn:E2; cbn [andb]; [|now rewrite orb_false_r].
    destruct (max_quit s =? 0); cbn [negb andb]; [now rewrite orb_false_r|].
    destruct (max_quit s <=? quit s + 1); [|now rewrite orb_false_r].
    rewrite Z.lor_spec. cbn. now rewrite !orb_true_r.
Qed.

Definition Rcnt (s s' : server) (e : list ev) : Prop :=
  (forall k, sev_cnt s' k = fold_left (sev_tally k) e (sev_cnt s k)) /\
  (forall k, id_cnt s' k = fold_left (id_tally k) e (id_cnt s k)).

Lemma Rcnt_process y h odd thr q sev id body :
  Rcnt (srv y) (srv (fst (process y h odd thr q sev id body)))
      (snd (process y h odd thr q sev id body)).
Proof.
  apply (rel_process Rcnt).
  - split; reflexivity.
  - intros s s1 s2 e1 e2 [H1 H2] [H3 H4]. split; intros k; rewrite fold_left_app.
    + now rewrite H3, H1.
    + now rewrite H4, H2.
  - split; reflexivity.
  - split; reflexivity.
  - intros s m. destruct (execute_ev s m) as (sh & lg & d & x & E & _). cbn zeta in E.
    rewrite E. split; intros k; cbn; unfold upd.
    + rewrite Nat.eqb_sym. now destruct (Nat.eqb_spec (m_sev m) k); subst.
    + rewrite Nat.eqb_sym. now destruct (Nat.eqb_spec (m_id m) k); subst.
Qed.

(** Quit count. *)
Definition Rquit (s s' : server) (e : list ev) : Prop :=
  max_quit s' = max_quit s /\ overridable s' = overridable s /\
  record_all s' = record_all s /\ die_raises s' = die_raises s /\
  quit s' = quit s + (if max_quit s =? 0 then 0 else n_counted e) /\
  (forall t1 m sh lg d t2, e = t1 ++ EExec m sh lg d :: t2 ->
     d = negb (Z.testbit (m_act m) 6) &&
         (Z.testbit (m_act m) 3 ||
          (Z.testbit (m_act m) 2 && negb (max_quit s =? 0) &&
           (max_quit s <=? quit s + n_counted (t1 ++ [EExec m sh lg d]))))) /\
  (record_all s = true -> forall m sh lg d, In (EExec m sh lg d) e ->
     Z.testbit (m_act m) 6 = true).

Lemma n_counted_app a b : n_counted (a ++ b) = n_counted a + n_counted b.
Proof. unfold n_counted. rewrite filter_app, app_length. lia. Qed.

Lemma app_split {A} (e1 e2 t1 t2 : list A) x :
  e1 ++ e2 = t1 ++ x :: t2 ->
  (exists u, e1 = t1 ++ x :: u) \/ (exists u, t1 = e1 ++ u /\ e2 = u ++ x :: t2).
Proof.
  revert t1; induction e1 as [|a e1 IH]; intros t1 E; cbn in *.
  - right. now exists t1.
  - destruct t1 as [|b t1]; cbn in E; injection E as -> E.
    + left. now exists e1.
    + destruct (IH _ E) as [(u & ->)|(u & -> & ->)].
      * left. now exists u.
      * right. now exists u.
Qed.

Lemma Rquit_process y h odd thr q sev id body :
  Rquit (srv y) (srv (fst (process y h odd thr q sev id body)))
      (snd (process y h odd thr q sev id body)).
Proof.
  apply (rel_process Rquit).
  - intros s. split; [reflexivity|]. do 3 (split; [reflexivity|]).
    split; [cbn; destruct (_ =? _); lia|]. split; [intros [|] ? ? ? ? ? E; discriminate|easy].
  - intros s s1 s2 e1 e2 (A1 & A2 & A3 & A4 & A5 & A6 & A7) (B1 & B2 & B3 & B4 & B5 & B6 & B7).
    split; [congruence|]. do 3 (split; [congruence|]).
    split.
    { rewrite n_counted_app, B5, A5, A1. destruct (max_quit s =? 0); lia. }
    split.
    + intros t1 m sh lg d t2 E. apply app_split in E.
      destruct E as [(u & E)|(u & -> & E)].
      * apply (A6 t1 m sh lg d u E).
      * specialize (B6 u m sh lg d t2 E). rewrite B6 at 1. rewrite A1, A5.
        destruct (max_quit s =? 0) eqn:Em; cbn [negb]; [now rewrite !andb_false_r|].
        rewrite <- app_assoc, (n_counted_app e1).
        now rewrite Z.add_assoc.
    + intros Hr m sh lg d Hi. apply in_app_or in Hi. destruct Hi as [Hi|Hi].
      * apply (A7 Hr _ _ _ _ Hi).
      * rewrite <- A3 in Hr. apply (B7 Hr _ _ _ _ Hi).
  - intros s i m0. split; [reflexivity|]. do 3 (split; [reflexivity|]).
    split; [cbn; destruct (_ =? _); lia|].
    split; [intros [|? [|]] ? ? ? ? ? E; discriminate|]. intros _ ? ? ? ? [H|[]]; discriminate.
  - intros s. split; [reflexivity|]. do 3 (split; [reflexivity|]).
    split; [cbn; destruct (_ =? _); lia|].
    split; [intros [|? [|]] ? ? ? ? ? E; discriminate|]. intros _ ? ? ? ? [H|[]]; discriminate.
  - intros s m. destruct (execute_ev s m) as (sh & lg & d & x & E & Ed). cbn zeta in E, Ed.
    rewrite E. cbn [fst snd].
    split; [reflexivity|]. do 3 (split; [reflexivity|]).
    set (m' := set_act m _) in *.
    split.
    { cbn [set_counts quit]. unfold n_counted. cbn [filter].
      destruct (counted _); destruct (max_quit s =? 0); cbn; lia. }
    split.
    + intros [|? [|]] m0 sh0 lg0 d0 t2 E2; try discriminate.
      injection E2 as <- <- <- <- E3. rewrite Ed at 1.
      unfold n_counted; cbn [app filter counted].
      destruct (Z.testbit (m_act m') 6); [reflexivity|].
      destruct (Z.testbit (m_act m') 2); [|now rewrite !andb_false_l].
      reflexivity.
    + intros Hr m0 sh0 lg0 d0 [Hi|[]]. injection Hi as <- <- <- <-.
      unfold m'. rewrite Hr. cbn [set_act m_act]. rewrite Z.lor_spec.
      change (Z.testbit RM_RECORD 6) with true. apply orb_true_r.
Qed.

(** ** Runs of messages *)
Lemma run_msgs_R (R : server -> server -> list ev -> Prop) :
  (forall s, R s s []) ->
  (forall s s1 s2 e1 e2, R s s1 e1 -> R s1 s2 e2 -> R s s2 (e1 ++ e2)) ->
  (forall y h odd thr q sev id body,
     R (srv y) (srv (fst (process y h odd thr q sev id body)))
       (snd (process y h odd thr q sev id body))) ->
  forall ops y, forallb is_msg ops = true ->
  R (srv y) (srv (fst (run_machine rstep y ops))) (snd (run_machine rstep y ops)).
Proof.
  intros Rnil Rapp Rp. induction ops as [|op ops IH]; intros y H; cbn [run_machine].
  - apply Rnil.
  - cbn in H. apply andb_true_iff in H as [H1 H2].
    destruct op; try discriminate H1. cbn [rstep].
    pose proof (Rp y h odd thr q sev id body) as H3.
    destruct (process y h odd thr q sev id body) as [y1 e1]. cbn [fst snd] in H3.
    specialize (IH y1 H2). destruct (run_machine rstep y1 ops) as [y2 e2]. cbn [fst snd] in *.
    now apply (Rapp _ (srv y1)).
Qed.

Lemma Rquit_nil s : Rquit s s [].
Proof.
  split; [reflexivity|]. do 3 (split; [reflexivity|]).
  split; [cbn; destruct (_ =? _); lia|]. split; [intros [|] ? ? ? ? ? E; discriminate|easy].
Qed.

Lemma Rquit_app s s1 s2 e1 e2 : Rquit s s1 e1 -> Rquit s1 s2 e2 -> Rquit s s2 (e1 ++ e2).
Proof.
  intros (A1 & A2 & A3 & A4 & A5 & A6 & A7) (B1 & B2 & B3 & B4 & B5 & B6 & B7).
  split; [congruence|]. do 3 (split; [congruence|]).
  split.
  { rewrite n_counted_app, B5, A5, A1. destruct (max_quit s =? 0); lia. }
  split.
  + intros t1 m sh lg d t2 E. apply app_split in E.
    destruct E as [(u & E)|(u & -> & E)].
    * apply (A6 t1 m sh lg d u E).
    * specialize (B6 u m sh lg d t2 E). rewrite B6 at 1. rewrite A1, A5.
      destruct (max_quit s =? 0) eqn:Em; cbn [negb]; [now rewrite !andb_false_r|].
      rewrite <- app_assoc, (n_counted_app e1).
      now rewrite Z.add_assoc.
  + intros Hr m sh lg d Hi. apply in_app_or in Hi. destruct Hi as [Hi|Hi].
    * apply (A7 Hr _ _ _ _ Hi).
    * rewrite <- A3 in Hr. apply (B7 Hr _ _ _ _ Hi).
Qed.

Lemma Rquit_run ops y : forallb is_msg ops = true ->
  Rquit (srv y) (srv (fst (run_machine rstep y ops))) (snd (run_machine rstep y ops)).
Proof.
  apply run_msgs_R; [apply Rquit_nil|apply Rquit_app|apply Rquit_process].
Qed.

(** Counts over all histories. *)
Lemma Rcnt_run ops : forall y,
  Rcnt (srv y) (srv (fst (run_machine rstep y ops))) (snd (run_machine rstep y ops)).
Proof.
  induction ops as [|op ops IH]; intros y; cbn [run_machine]; [split; reflexivity|].
  assert (H : Rcnt (srv y) (srv (fst (rstep y op))) (snd (rstep y op))).
  { destruct op; cbn [rstep].
    - apply Rcnt_process.
    - unfold set_max_quit_count. destruct (overridable (srv y)); split; reflexivity.
    - split; reflexivity.
    - split; intros k; cbn; [|reflexivity]. unfold upd. rewrite Nat.eqb_sym.
      destruct (Nat.eqb sev k); [|reflexivity]. unfold clip.
      destruct (Z.ltb_spec n 0); lia.
    - split; intros k; reflexivity.
    - split; intros k; cbn; [reflexivity|]. unfold upd. rewrite Nat.eqb_sym.
      destruct (Nat.eqb id k); [|reflexivity]. unfold clip.
      destruct (Z.ltb_spec n 0); lia. }
  destruct (rstep y op) as [y1 e1]. cbn [fst snd] in H. specialize (IH y1).
  destruct (run_machine rstep y1 ops) as [y2 e2]. cbn [fst snd] in *.
  destruct H as [H1 H2]. destruct IH as [H3 H4].
  split; intros k; rewrite fold_left_app; [now rewrite H3, H1|now rewrite H4, H2].
Qed.

(** Sums. *)
Definition is_set (e : ev) : bool :=
  match e with ESetSev _ _ | EResetSev | ESetId _ _ => true | _ => false end.

Lemma zsum_bump (f : nat -> Z) k ks :
  NoDup ks -> zsum (map (fun j => if Nat.eqb k j then f j + 1 else f j) ks)
  = zsum (map f ks) + (if in_dec Nat.eq_dec k ks then 1 else 0).
Proof.
  induction ks as [|a ks IH]; intros Hn; cbn [map zsum]; [reflexivity|].
  inversion Hn; subst. rewrite IH by assumption.
  destruct (Nat.eqb_spec k a) as [->|Hka].
  - destruct (in_dec Nat.eq_dec a ks); [contradiction|].
    destruct (in_dec Nat.eq_dec a (a :: ks)) as [|N]; [lia|]. exfalso; apply N; now left.
  - destruct (in_dec Nat.eq_dec k ks) as [Hi|Hi];
      destruct (in_dec Nat.eq_dec k (a :: ks)) as [Hj|Hj]; try lia.
    + exfalso; apply Hj; now right.
    + destruct Hj; [now subst|contradiction].
Qed.

Lemma sum_tally (key : msg -> nat) (tally : nat -> Z -> ev -> Z) :
  (forall k acc m sh lg d, tally k acc (EExec m sh lg d) =
      if Nat.eqb (key m) k then acc + 1 else acc) ->
  (forall k acc e, is_set e = false -> is_exec e = false -> tally k acc e = acc) ->
  forall ks, NoDup ks -> forall tr f,
  (forall e, In e tr -> is_set e = false) ->
  (forall m sh lg d, In (EExec m sh lg d) tr -> In (key m) ks) ->
  zsum (map (fun k => fold_left (tally k) tr (f k)) ks) = zsum (map f ks) + executed tr.
Proof.
  intros T1 T2 ks Hn. induction tr as [|e tr IH]; intros f Hs Hk.
  - unfold executed; cbn [fold_left filter length Z.of_nat]. now rewrite Z.add_0_r.
  - cbn [fold_left].
    rewrite (IH (fun k => tally k (f k) e)).
    + destruct (is_exec e) eqn:Ee.
      * destruct e; try discriminate Ee.
        rewrite (map_ext _ (fun j => if Nat.eqb (key m) j then f j + 1 else f j))
          by (intro; apply T1).
        rewrite zsum_bump by exact Hn.
        destruct (in_dec Nat.eq_dec (key m) ks) as [|N].
        -- unfold executed; cbn [filter is_exec length]. lia.
        -- exfalso. apply N. apply (Hk m shown logged died). now left.
      * rewrite (map_ext _ f) by (intro; apply T2; [apply Hs; now left|exact Ee]).
        unfold executed; cbn [filter]. now rewrite Ee.
    + intros x Hx. apply Hs. now right.
    + intros m sh lg d Hx. apply (Hk m sh lg d). now right.
Qed.

Lemma msgs_no_set ops y : forallb is_msg ops = true ->
  forall e, In e (snd (run_machine rstep y ops)) -> is_set e = false.
Proof.
  intros H. apply (run_msgs_R (fun _ _ tr => forall e, In e tr -> is_set e = false));
    [intros _ ? []| |intros z h odd thr q sev id body|exact H].
  - intros _ _ _ e1 e2 H1 H2 e Hi. apply in_app_or in Hi. destruct Hi; auto.
  - apply (rel_process (fun _ _ tr => forall e, In e tr -> is_set e = false)).
    + intros _ ? [].
    + intros _ _ _ e1 e2 H1 H2 e Hi. apply in_app_or in Hi. destruct Hi; auto.
    + intros _ i m e [<-|[]]. reflexivity.
    + intros _ e [<-|[]]. reflexivity.
    + intros s m e. destruct (execute_ev s m) as (sh & lg & d & x & E & _). cbn zeta in E.
      rewrite E. intros [<-|[]]. reflexivity.
Qed.

(** ** Catchers *)
Lemma sees_app a b : sees (a ++ b) = sees a ++ sees b.
Proof. induction a as [|[] a IH]; cbn; try exact IH; [reflexivity|]. now rewrite IH. Qed.

Lemma sees_issue l : forall s, sees (snd (fst (issue_all s l))) = [].
Proof.
  intros s. apply (rel_issue (fun _ _ e => sees e = [])); [reflexivity| |].
  - intros _ _ _ e1 e2 H1 H2. now rewrite sees_app, H1, H2.
  - intros s' m. destruct (execute_ev s' m) as (sh & lg & d & x & E & _). cbn zeta in E.
    now rewrite E.
Qed.

Lemma fix_handed h odd prev m1 :
  forall m, m_sev m = prev ->
  handed (fun s => get_action h s odd) m m1 (fix_action h odd prev m1).
Proof.
  intros m <-. unfold handed, fix_action.
  destruct (Nat.eqb_spec (m_sev m1) (m_sev m)); cbn [negb andb].
  - repeat split; auto.
  - destruct (Z.eqb_spec (m_act m1) (get_action h (m_sev m) odd)); cbn.
    + repeat split; auto. intros [H|H]; contradiction.
    + repeat split; auto.
Qed.

Lemma rest_passes h odd thr q : forall s i m s1 e m1 r,
  catch_rest h odd thr s i q m = (s1, e, m1, r) ->
  r = RRaised \/
  passes (fun k => get_action h k odd) (live i q) m (sees e) m1
         (match r with RCaught => true | _ => false end).
Proof.
  induction q as [|[[] f|[]] q IH]; intros s i m s1 e m1 r H; cbn [catch_rest live] in *.
  - injection H as <- <- <- <-. right. constructor.
  - destruct (f m) as [[l m0] v] eqn:Ef.
    pose proof (sees_issue (l ++ match v with VUnknown => [thr_msg h thr] | _ => [] end) s) as Hs.
    destruct (issue_all s _) as [[s0 e0] x0]. cbn [fst snd] in Hs.
    destruct x0; [left; now injection H as _ _ _ <-|].
    destruct v.
    + destruct (catch_rest h odd thr s0 (S i) q _) as [[[s2 e2] m2] r2] eqn:Er.
      injection H as <- <- <- <-.
      destruct (IH _ _ _ _ _ _ _ Er) as [->|HI]; [now left|right].
      cbn [sees]. rewrite sees_app, Hs. cbn [app].
      eapply pass_on; [exact Ef|now left|now apply fix_handed|exact HI].
    + injection H as <- <- <- <-. right. cbn [sees]. rewrite Hs.
      eapply pass_caught; [exact Ef|now apply fix_handed].
    + destruct (catch_rest h odd thr s0 (S i) q _) as [[[s2 e2] m2] r2] eqn:Er.
      injection H as <- <- <- <-.
      destruct (IH _ _ _ _ _ _ _ Er) as [->|HI]; [now left|right].
      cbn [sees]. rewrite sees_app, Hs. cbn [app].
      eapply pass_on; [exact Ef|now right|now apply fix_handed|exact HI].
    + left. now injection H as _ _ _ <-.
  - eapply IH, H.
  - left. now injection H as _ _ _ <-.
  - eapply IH, H.
Qed.

Lemma first_passes h odd thr q : forall s i m s1 e m1 r,
  catch_first h odd thr s i q m = (s1, e, m1, r) ->
  r = RRaised \/
  passes (fun k => get_action h k odd) (live i q) m (sees e) m1
         (match r with RCaught => true | _ => false end).
Proof.
  induction q as [|[[] f|[]] q IH]; intros s i m s1 e m1 r H; cbn [catch_first] in H.
  - injection H as <- <- <- <-. right. constructor.
  - eapply rest_passes, H.
  - cbn [live]. eapply IH, H.
  - cbn [live]. eapply IH, H.
  - cbn [live]. eapply IH, H.
Qed.

Lemma rest_quiet h odd thr q : only_catchers q ->
  (forall f, In (Catcher true f) q -> quiet f) ->
  forall s i m, exists e m1 r,
    catch_rest h odd thr s i q m = (s, e, m1, r) /\ r <> RRaised /\
    forall x, In x e -> exists j mj, x = ESees j mj.
Proof.
  induction q as [|[[] f|[]] q IH]; intros Ho Hq s i m; cbn [catch_rest].
  - exists [], m, RThrown. split; [reflexivity|]. split; [discriminate|]. intros x [].
  - assert (IH' := IH (fun on Hin => Ho on (or_intror Hin)) (fun g Hg => Hq g (or_intror Hg))).
    destruct (Hq f (or_introl eq_refl) m) as [Hl Hv].
    destruct (f m) as [[l m0] v]. cbn [fst snd] in Hl, Hv. subst l.
    destruct Hv as [->| ->]; cbn [app issue_all].
    + destruct (IH' s (S i) (fix_action h odd (m_sev m) m0)) as (e & m1 & r & E & Hr & He).
      rewrite E. do 3 eexists. split; [reflexivity|]. split; [exact Hr|].
      intros x [<-|Hx]; [now do 2 eexists|]. apply He. exact Hx.
    + do 3 eexists. split; [reflexivity|]. split; [discriminate|].
      intros x [<-|[]]. now do 2 eexists.
  - apply IH; [intros on Hin; apply Ho; now right|intros g Hg; apply Hq; now right].
  - exfalso. specialize (Ho true (or_introl eq_refl)). discriminate.
  - apply IH; [intros on Hin; apply Ho; now right|intros g Hg; apply Hq; now right].
Qed.

Lemma first_quiet h odd thr q : only_catchers q ->
  (forall f, In (Catcher true f) q -> quiet f) ->
  forall s i m, exists e m1 r,
    catch_first h odd thr s i q m = (s, e, m1, r) /\ r <> RRaised /\
    forall x, In x e -> exists j mj, x = ESees j mj.
Proof.
  induction q as [|[[] f|[]] q IH]; intros Ho Hq s i m; cbn [catch_first].
  - exists [], m, RThrown. split; [reflexivity|]. split; [discriminate|]. intros x [].
  - apply rest_quiet; assumption.
  - apply IH; [intros on Hin; apply Ho; now right|intros g Hg; apply Hq; now right].
  - apply IH; [intros on Hin; apply Ho; now right|intros g Hg; apply Hq; now right].
  - apply IH; [intros on Hin; apply Ho; now right|intros g Hg; apply Hq; now right].
Qed.
