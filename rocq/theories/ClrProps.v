(** C232: clearing an objection. *)
From Coq Require Import List Bool Arith ZArith Lia.
From Verif Require Import Prelude ObjectionModel ClrModel ClrSpec.
Import ListNotations.
Open Scope Z_scope.

Section Clr.
Context (parent : nat -> nat) (objs : list nat).
Local Notation cstep := (ClrModel.cstep parent objs).
Local Notation crun := (ClrModel.crun parent objs).

(** Without drains, clear() sets everything to zero and lets those go on that wait. *)
Theorem C232_clear s : broken s = false -> no_drains objs (ob s) ->
  let r := cstep s LClear in
  nothing (ob (fst r)) /\ cleared (fst r) = true /\ In OReleased (snd r) /\ (forall e, ~ In (OExn e) (snd r)).
Proof.
  intros B (F & N). cbn. unfold ClrModel.cstep, clear. rewrite B. cbn zeta. cbn [flist fctx]. rewrite F.
  assert (E : forallb (fun x => is_none (fctx (ob s) x)) objs = true).
  { apply forallb_forall. intros x Hx. now rewrite (N x Hx). }
  rewrite E. cbn [fst snd ob cleared]. split; [repeat split|]. split; [reflexivity|].
  split; [apply in_or_app; right; now left|]. intros e H. apply in_app_iff in H as [H|[H|[]]]; [|discriminate].
  destruct (top_ad s); [destruct H|destruct H|]. destruct (_ >? _); [destruct H as [H|[]]; discriminate|destruct H].
Qed.
(** With a drain it raises an exception: the counts are zero all the same, but those that wait
    do not go on. *)
Theorem C232_drains s : broken s = false -> ~ no_drains objs (ob s) ->
  let r := cstep s LClear in
  nothing (ob (fst r)) /\ cleared (fst r) = cleared s /\ ~ In OReleased (snd r) /\
  In (OExn (match flist (ob s) with [] => KeyError | _ => AttributeError end)) (snd r).
Proof.
  intros B N. cbn. unfold ClrModel.cstep, clear. rewrite B. cbn zeta. cbn [flist fctx].
  set (w := match top_ad s with TFalse => _ | _ => _ end).
  assert (W : ~ In OReleased w).
  { subst w. destruct (top_ad s); [intros []|intros []|]. destruct (_ >? _); intros H; [destruct H as [H|[]]; discriminate|destruct H]. }
  destruct (flist (ob s)) as [|c f] eqn:F.
  - destruct (forallb _ objs) eqn:E.
    + exfalso. apply N. split; [exact F|]. intros x Hx. rewrite forallb_forall in E. specialize (E x Hx).
      cbn in E. now destruct (fctx (ob s) x).
    + cbn [fst snd ob cleared]. split; [repeat split|]. split; [reflexivity|].
      split; [rewrite in_app_iff; intros [H|[H|[]]]; [tauto|discriminate]|]. apply in_or_app. right. now left.
  - cbn [fst snd ob cleared]. split; [repeat split|]. split; [reflexivity|].
    split; [rewrite in_app_iff; intros [H|[H|[]]]; [tauto|discriminate]|]. apply in_or_app. right. now left.
Qed.
(** The drain goes on, and at its end finds the count of the parent below zero. *)
Theorem C232_fatal s i c : broken s = false -> flist (ob s) = [] -> cleared s = false ->
  fctx (ob s) (x_obj c) <> None -> In (x_obj c) objs ->
  nth_error (drain (ob s)) i = Some (DProc c true) -> x_obj c <> 0%nat -> 0 < x_cnt c ->
  snd (crun s [LClear; LObj (LFinish i)]) =
    snd (cstep s LClear) ++ [OObj (OFatal (parent (x_obj c)))].
Proof.
  intros B F C H Hin Hd Hz Hk. unfold ClrModel.crun. cbn [run_machine].
  assert (E : exists w, cstep s LClear = (CO (Objn (fun _ => 0) (fun _ => 0) [] (ev (ob s)) [] (nfork (ob s)) (fctx (ob s)) (drain (ob s))) false (top_ad s) false, w)).
  { unfold ClrModel.cstep, clear. rewrite B. cbn zeta. cbn [flist fctx]. rewrite F.
    destruct (forallb _ objs) eqn:E; [|rewrite C; cbn; eauto]. rewrite forallb_forall in E. specialize (E _ Hin).
    cbn in E. destruct (fctx (ob s) (x_obj c)); [discriminate|congruence]. }
  destruct E as (w & E). rewrite E. cbn [fst snd]. unfold ClrModel.cstep, lift. cbn [broken ob cleared top_ad].
  cbn [ostep drain]. rewrite Hd. apply Nat.eqb_neq in Hz. rewrite Hz. cbn [negb].
  cbn [m_drop set_drain tot]. destruct (x_cnt c =? 0) eqn:E0; [apply Z.eqb_eq in E0; lia|].
  rewrite Z.gtb_ltb. destruct (0 <? x_cnt c) eqn:E1; [|apply Z.ltb_ge in E1; lia].
  unfold set_drain. cbn. destruct (fctx (ob s) (x_obj c)); [reflexivity|congruence].
Qed.

(** all counts in the records of drains are positive *)
Definition posc (c : ctx) : Prop := 0 < x_cnt c.
Definition pos (o : objn) : Prop :=
  Forall posc (sched o) /\ Forall posc (flist o) /\ (forall x c, fctx o x = Some c -> posc c) /\
  Forall (fun d => posc (d_ctx d)) (drain o).
Local Ltac p4 := (split; [|split; [|split]]).
Lemma drop_pos fuel : forall s o source k, 0 < k -> pos s -> pos (fst (m_drop parent fuel s o source k)).
Proof.
  induction fuel as [|fuel IH]; intros s o source k Hk P; [exact P|]. cbn [m_drop].
  destruct (k =? 0); [exact P|]. destruct (k >? tot s o); [exact P|].
  destruct (Nat.eqb o source && (k >? src s o)); [exact P|].
  set (q := if Nat.eqb o source then _ else _).
  assert (Q : pos (fst q)) by (subst q; destruct (Nat.eqb o source); exact P).
  destruct q as [s1 o1]. cbn [fst] in Q.
  set (s2 := set_tot s1 _). assert (Q2 : pos s2) by exact Q.
  destruct (negb (tot s2 o =? 0)).
  - destruct (negb (Nat.eqb o 0)); [|exact Q2].
    specialize (IH s2 (parent o) source k Hk Q2). destruct (m_drop parent fuel s2 (parent o) source k). exact IH.
  - destruct Q2 as (A & B & C & D). cbn. p4; auto. apply Forall_app. split; [exact A|]. constructor; auto.
Qed.
Lemma take_pos o l c l' : take_ctx o l = Some (c, l') -> Forall posc l -> Forall posc l'.
Proof.
  revert c l'. induction l as [|x l IH]; intros c l' E P; [discriminate|]. cbn in E. inversion P as [|? ? Px Pl]; subst.
  destruct (Nat.eqb (x_obj x) o); [now inversion E; subst|].
  destruct (take_ctx o l) as [[d l1]|]; [|discriminate]. inversion E; subst. constructor; eauto.
Qed.
Lemma find_pos s o : pos s -> pos (snd (find_ctx s o)).
Proof.
  intros (A & B & C & D). unfold find_ctx.
  destruct (take_ctx o (sched s)) as [[c l]|] eqn:E1; [cbn; p4; auto; cbn; eapply take_pos; eauto|].
  destruct (take_ctx o (flist s)) as [[c l]|] eqn:E2; [cbn; p4; auto; cbn; eapply take_pos; eauto|].
  destruct (fctx s o) as [c|] eqn:E3; [|cbn; p4; auto]. cbn. p4; auto. cbn. intros x d.
  destruct (Nat.eq_dec x o) as [->|Hn]; [rewrite upd_eq; discriminate|rewrite upd_neq by auto; eauto].
Qed.
Lemma raise_pos fuel : forall s o source k, 0 < k -> pos s -> pos (fst (m_raise parent fuel s o source k)).
Proof.
  induction fuel as [|fuel IH]; intros s o source k Hk P; [exact P|]. cbn [m_raise].
  destruct (k =? 0); [exact P|].
  set (s1 := set_tot s _). set (q := if Nat.eqb o source then _ else _).
  assert (Q : pos (fst q)) by (subst q; destruct (Nat.eqb o source); exact P).
  destruct q as [s2 o1]. cbn [fst] in Q. pose proof (find_pos _ o Q) as R.
  destruct (find_ctx s2 o) as [[c|] s3] eqn:E; cbn [snd] in R.
  - destruct (((k - x_cnt c) =? 0) || Nat.eqb o 0) eqn:E0; [exact R|].
    destruct ((k - x_cnt c) >? 0) eqn:E1.
    + rewrite Z.gtb_ltb in E1. apply Z.ltb_lt in E1. specialize (IH s3 (parent o) source _ E1 R).
      destruct (m_raise parent fuel s3 (parent o) source (k - x_cnt c)). exact IH.
    + apply orb_false_iff in E0 as [E0 _]. apply Z.eqb_neq in E0. rewrite Z.gtb_ltb in E1. apply Z.ltb_ge in E1.
      assert (H : 0 < - (k - x_cnt c)) by lia. pose proof (drop_pos fuel s3 (parent o) source _ H R) as Rd.
      destruct (m_drop parent fuel s3 (parent o) source (- (k - x_cnt c))). exact Rd.
  - destruct (negb (Nat.eqb o 0)); [|exact R]. specialize (IH s3 (parent o) source _ Hk R).
    destruct (m_raise parent fuel s3 (parent o) source k). exact IH.
Qed.
Lemma Forall_remove {A} (P : A -> Prop) i l : Forall P l -> Forall P (remove_nth i l).
Proof.
  intros H. unfold remove_nth. apply Forall_app. split; apply Forall_forall; intros x Hx; rewrite Forall_forall in H; apply H.
  - rewrite <- (firstn_skipn i l). apply in_or_app. now left.
  - rewrite <- (firstn_skipn (S i) l). apply in_or_app. now right.
Qed.
Lemma ostep_pos s l : positive (LObj l) -> pos s -> pos (fst (ostep parent s l)).
Proof.
  intros Hl P. pose proof P as (A & B & C & D). destruct l as [o k|o k| | |i|i].
  - now apply raise_pos.
  - now apply drop_pos.
  - cbn. destruct (ev s); [|exact P]. destruct (sched s) as [|c l]; [cbn; p4; auto; constructor|].
    inversion A as [|? ? Pc Pl]; subst. cbn. p4; auto. apply Forall_app. split; auto.
  - cbn. destruct (nfork s) as [|n]; [exact P|]. destruct (flist s) as [|c l]; [cbn; p4; auto; constructor|].
    inversion B as [|? ? Pc Pl]; subst. cbn. p4; auto.
    + intros x d. cbn [fctx set_drain set_fctx set_flist]. destruct (Nat.eq_dec x (x_obj c)) as [->|Hn]; [rewrite upd_eq; now intros [= <-]|rewrite upd_neq by auto; eauto].
    + apply Forall_app. split; auto.
  - cbn. destruct (nth_error (drain s) i) as [[c [|]]|] eqn:E; [exact P| |exact P].
    cbn. p4; auto. pose proof (nth_error_In _ _ E) as Hi. rewrite Forall_forall in D. pose proof (D _ Hi) as Pc.
    pose proof D as D'. rewrite <- Forall_forall in D'.
    pose proof (firstn_skipn i (drain s)) as F1. pose proof (firstn_skipn (S i) (drain s)) as F2.
    apply Forall_app. split; [|constructor; [exact Pc|]]; apply Forall_forall; intros x Hx; apply D;
      [rewrite <- F1|rewrite <- F2]; apply in_or_app; auto.
  - cbn [ostep]. destruct (nth_error (drain s) i) as [[c [|]]|] eqn:E; [|exact P|exact P].
    pose proof (nth_error_In _ _ E) as Hi. rewrite Forall_forall in D. pose proof (D _ Hi) as Pc. rewrite <- Forall_forall in D.
    set (s1 := set_drain s _). assert (P1 : pos s1) by (p4; auto; cbn; now apply Forall_remove).
    set (q := if negb _ then _ else _). assert (Q : pos (fst q)).
    { subst q. destruct (negb (Nat.eqb (x_obj c) 0)); [now apply drop_pos|exact P1]. }
    destruct q as [s2 o1]. cbn [fst] in Q. destruct (fctx s2 (x_obj c)); [|exact Q].
    destruct Q as (A2 & B2 & C2 & D2). cbn. p4; auto. cbn. intros x d.
    destruct (Nat.eq_dec x (x_obj c)) as [->|Hn]; [rewrite upd_eq; discriminate|rewrite upd_neq by auto; eauto].
Qed.

(** with nothing counted, a step other than a raise changes no count and accepts nothing *)
Lemma drop_nothing fuel s o source k : 0 < k -> (forall x, tot s x = 0) ->
  fst (m_drop parent fuel s o source k) = s /\ Forall (fun x => is_fatal x = true) (snd (m_drop parent fuel s o source k)).
Proof.
  intros Hk Hz. destruct fuel as [|fuel]; [repeat constructor|]. cbn [m_drop].
  destruct (k =? 0) eqn:E0; [repeat constructor|]. rewrite Hz, Z.gtb_ltb.
  destruct (0 <? k) eqn:E; [repeat constructor|]. apply Z.ltb_ge in E. lia.
Qed.
Definition quiet (x : out) : bool := match x with OFatal _ | OAllDropped _ | OKeyError => true | _ => false end.
Lemma ostep_nothing s l : positive (LObj l) -> no_raise (LObj l) -> pos s -> (forall x, tot s x = 0) -> (forall x, src s x = 0) ->
  (forall x, tot (fst (ostep parent s l)) x = 0) /\ (forall x, src (fst (ostep parent s l)) x = 0) /\
  Forall (fun x => quiet x = true) (snd (ostep parent s l)).
Proof.
  intros Hl Hr P Hz Hs. assert (Fq : forall l, Forall (fun x => is_fatal x = true) l -> Forall (fun x => quiet x = true) l).
  { intros l'. apply Forall_impl. now intros []. }
  destruct l as [o k|o k| | |i|i]; [destruct Hr| | | | |].
  - cbn [ostep]. destruct (drop_nothing (S o) s o o k Hl Hz) as [-> F]. auto.
  - cbn. destruct (ev s); [destruct (sched s)|]; cbn; auto.
  - cbn. destruct (nfork s); [|destruct (flist s)]; cbn; auto.
  - cbn. destruct (nth_error (drain s) i) as [[c [|]]|]; cbn; auto.
  - cbn [ostep]. destruct (nth_error (drain s) i) as [[c [|]]|] eqn:E; [|cbn; auto|cbn; auto].
    destruct P as (_ & _ & _ & D). pose proof (nth_error_In _ _ E) as Hi. rewrite Forall_forall in D. pose proof (D _ Hi) as Pc.
    set (s1 := set_drain s _). assert (Q : exists o1, (if negb (Nat.eqb (x_obj c) 0) then m_drop parent (S (x_obj c)) s1 (parent (x_obj c)) (x_src c) (x_cnt c) else (s1, [])) = (s1, o1) /\ Forall (fun x => is_fatal x = true) o1).
    { destruct (negb (Nat.eqb (x_obj c) 0)); [|exists []; split; [reflexivity|constructor]].
      destruct (drop_nothing (S (x_obj c)) s1 (parent (x_obj c)) (x_src c) _ Pc Hz) as [F1 F2].
      destruct (m_drop parent _ s1 _ _ _) as [s2 o2]. cbn [fst snd] in *. subst. eauto. }
    destruct Q as (o1 & -> & Ho). destruct (fctx s1 (x_obj c)); cbn; repeat split; auto.
    apply Forall_app. split; [auto|]. now constructor.
Qed.

Lemma cstep_pos s l : positive l -> pos (ob s) -> pos (ob (fst (cstep s l))).
Proof.
  intros Hl P. unfold ClrModel.cstep. destruct (broken s); [exact P|]. destruct l as [l|].
  - pose proof (ostep_pos (ob s) l Hl P) as Q. unfold lift. destruct (ostep parent (ob s) l). exact Q.
  - destruct P as (A & B & C & D). unfold clear. cbn zeta. cbn [flist fctx].
    revert B. destruct (flist (ob s)); intros B; [destruct (forallb _ objs)|]; cbn; p4; auto; first [constructor | discriminate].
Qed.
Lemma ignored ls : forall s, Forall positive ls -> Forall no_raise ls -> pos (ob s) -> cleared s = true ->
  (forall x, tot (ob s) x = 0) -> (forall x, src (ob s) x = 0) ->
  let r := crun s ls in
  (forall x, tot (ob (fst r)) x = 0) /\ (forall x, src (ob (fst r)) x = 0) /\ Forall harmless (snd r).
Proof.
  induction ls as [|l ls IH]; intros s Hp Hr P Hc Hz Hs; [cbn; auto|].
  inversion Hp as [|? ? Hp1 Hp2]; subst. inversion Hr as [|? ? Hr1 Hr2]; subst.
  assert (H1 : cleared (fst (cstep s l)) = true /\ (forall x, tot (ob (fst (cstep s l))) x = 0) /\
    (forall x, src (ob (fst (cstep s l))) x = 0) /\ Forall harmless (snd (cstep s l))).
  { unfold ClrModel.cstep. destruct (broken s); [cbn; auto|]. destruct l as [l|].
    - destruct (ostep_nothing (ob s) l Hp1 Hr1 P Hz Hs) as (Z1 & Z2 & Z3). unfold lift.
      destruct (ostep parent (ob s) l) as [o outs]. cbn [fst snd] in *.
      assert (Ec : match l with LRaise _ _ => false | _ => cleared s end = true) by (destruct l; auto; destruct Hr1).
      rewrite Ec. cbn [fst snd ob cleared]. repeat split; auto. apply Forall_map, Forall_forall.
      intros x Hx. apply filter_In in Hx as [Hx Hf]. rewrite Forall_forall in Z3. specialize (Z3 x Hx).
      destruct x; try discriminate; exact I.
    - unfold clear. cbn zeta. cbn [flist fctx]. rewrite Hz.
      assert (W : match top_ad s with TFalse => if 0 >? 0 then [OWarn] else [] | _ => [] end = []) by now destruct (top_ad s).
      rewrite W. destruct (flist (ob s)); [destruct (forallb _ objs)|]; cbn; repeat split; auto; repeat constructor. }
  destruct H1 as (C1 & Z1 & S1 & F1). pose proof (cstep_pos s l Hp1 P) as P1. cbn zeta. unfold ClrModel.crun. cbn [run_machine].
  destruct (cstep s l) as [s1 o1]. cbn [fst snd] in *. specialize (IH s1 Hp2 Hr2 P1 C1 Z1 S1). cbn zeta in IH.
  unfold ClrModel.crun in IH. destruct (run_machine cstep s1 ls) as [s2 o2]. cbn [fst snd] in *.
  destruct IH as (I1 & I2 & I3). repeat split; auto. apply Forall_app. auto.
Qed.

(** After clear(), until the next raise, drops are ignored (whatever drains still run): nothing
    is counted, nothing is reported below zero, and further clears do not warn. *)
Theorem C232_ignored h ls : Forall positive h -> Forall positive ls -> Forall no_raise ls ->
  let s := fst (crun cobj0 h) in
  broken s = false -> no_drains objs (ob s) ->
  let r := crun (fst (cstep s LClear)) ls in
  (forall x, tot (ob (fst r)) x = 0) /\ (forall x, src (ob (fst r)) x = 0) /\ Forall harmless (snd r).
Proof.
  intros Hh Hp Hr s B N. destruct (C232_clear s B N) as ((Z1 & Z2 & _) & C & _).
  assert (P : pos (ob s)).
  { refine (run_machine_inv_ok cstep positive (fun s _ => pos (ob s)) _ h cobj0 [] Hh _).
    - intros s0 tr l Hl P. now apply cstep_pos.
    - p4; try constructor. discriminate. }
  apply ignored; auto. now apply cstep_pos.
Qed.

(** The warning that objections were outstanding is never given. *)
Theorem C232_no_warning ls : Forall positive ls -> ~ In OWarn (snd (crun cobj0 ls)).
Proof.
  intros Hp. unfold ClrModel.crun.
  assert (H : (fun s tr => (pos (ob s) /\ (top_ad s = TFalse -> (forall x, tot (ob s) x = 0) /\ (forall x, src (ob s) x = 0))) /\ ~ In OWarn tr)
     (fst (run_machine cstep cobj0 ls)) ([] ++ snd (run_machine cstep cobj0 ls))).
  { apply run_machine_inv_ok with (ok := positive); [|exact Hp|].
    2: { split; [|intros []]. split; [|discriminate]. p4; try constructor. discriminate. }
    intros s tr l Hl ((P & T) & N). split; [split; [now apply cstep_pos|]|].
    - unfold ClrModel.cstep. destruct (broken s); [exact T|]. destruct l as [l|].
      + unfold lift. assert (Dr : no_raise (LObj l) \/ exists o k, l = LRaise o k) by (destruct l; cbn; eauto).
        destruct (ostep parent (ob s) l) as [o outs] eqn:Eo. cbn [fst top_ad].
        destruct (existsb is_top_all_dropped _); [discriminate|].
        destruct Dr as [Dr|(x & k & ->)]; [|discriminate]. intros Ht.
        assert (Ht' : top_ad s = TFalse) by (destruct l; auto; destruct Dr).
        destruct (T Ht') as [Tz Ts]. destruct (ostep_nothing (ob s) l Hl Dr P Tz Ts) as (Z1 & Z2 & _).
        rewrite Eo in Z1, Z2. auto.
      + unfold clear. cbn zeta. cbn [flist fctx]. destruct (flist (ob s)); [destruct (forallb _ objs)|]; cbn; auto.
    - rewrite in_app_iff. intros [H|H]; [tauto|]. revert H. unfold ClrModel.cstep.
      destruct (broken s); [intros []|]. destruct l as [l|].
      + unfold lift. destruct (ostep parent (ob s) l) as [o outs]. cbn [snd]. rewrite in_map_iff. intros (x & E & _). discriminate.
      + unfold clear. cbn zeta. cbn [flist fctx].
        assert (W : match top_ad s with TFalse => if tot (ob s) 0%nat >? 0 then [OWarn] else [] | _ => [] end = []).
        { destruct (top_ad s); auto. destruct (T eq_refl) as [Tz _]. now rewrite Tz. }
        rewrite W. destruct (flist (ob s)); [destruct (forallb _ objs)|]; cbn; intros [H|[]]; discriminate. }
  apply H.
Qed.

(** Cleared while no drain runs, the objection is as good as new. *)
Theorem C232_fresh s ls o k : broken s = false -> no_drains objs (ob s) -> drain (ob s) = [] -> nfork (ob s) = 0%nat ->
  snd (crun (fst (crun s [LClear; LObj LBg])) (LObj (LRaise o k) :: ls)) = snd (crun cobj0 (LObj (LRaise o k) :: ls)).
Proof.
  intros B (F & N) D K.
  assert (E : ob (fst (crun s [LClear; LObj LBg])) = objn0 /\ broken (fst (crun s [LClear; LObj LBg])) = false).
  { unfold ClrModel.crun. cbn [run_machine]. unfold ClrModel.cstep at 1 3. rewrite B. unfold clear. cbn zeta. cbn [flist fctx]. rewrite F.
    assert (E : forallb (fun x => is_none (fctx (ob s) x)) objs = true).
    { apply forallb_forall. intros x Hx. now rewrite (N x Hx). }
    rewrite E, D, K. cbn. unfold lift. cbn. destruct (ev (ob s)); cbn; auto. }
  destruct E as [E E']. destruct (fst (crun s [LClear; LObj LBg])) as [b c t br]. cbn in E, E'. subst.
  unfold ClrModel.crun. cbn [run_machine]. unfold ClrModel.cstep at 1 3. cbn [broken cobj0]. unfold lift. cbn [ob cobj0].
  destruct (ostep parent objn0 (LRaise o k)) as [o1 outs]. cbn [fst snd]. reflexivity.
Qed.
End Clr.

(** Component 1 below the top, component 2 below it. *)
Definition ex_parent (o : nat) : nat := match o with O => O | S n => n end.
Definition ex_run := crun ex_parent [0; 1; 2]%nat cobj0.
(** An objection outstanding, cleared, dropped too late, raised again. *)
Example C232_example :
  snd (ex_run [LObj (LRaise 2 1); LClear; LObj (LDrop 2 1); LClear; LObj (LRaise 1 1)]) =
    map OObj [OAcc 2 1; ORaised 2; ORaised 1; ORaised 0] ++ [OReleased; OReleased] ++
    map OObj [OAcc 1 1; ORaised 1; ORaised 0] /\
  tot (ob (fst (ex_run [LObj (LRaise 2 1); LClear]))) 0%nat = 0 /\
  no_drains [0; 1; 2]%nat (ob (fst (ex_run [LObj (LRaise 2 1)]))) /\
  pos (ob (fst (ex_run [LObj (LRaise 2 1); LClear]))).
Proof.
  split; [vm_compute; reflexivity|]. split; [vm_compute; reflexivity|]. split; [split; [reflexivity|intros; reflexivity]|].
  split; [constructor|]. split; [constructor|]. split; [discriminate|constructor].
Qed.
(** Cleared while component 2 drains: KeyError, and when the drain is over a fatal error at
    component 1; cleared before the drain begins, once it was forked: AttributeError. *)
Example C232_drain_example :
  snd (ex_run [LObj (LRaise 2 1); LObj (LDrop 2 1); LObj LBg; LObj LFork; LObj (LNotify 0); LClear; LObj (LFinish 0)]) =
    map OObj [OAcc 2 1; ORaised 2; ORaised 1; ORaised 0; OAcc 2 (-1); ODropped 2; OAllDropped 2] ++
    [OExn KeyError; OObj (OFatal 1)] /\
  snd (ex_run [LObj (LRaise 2 1); LObj (LDrop 2 1); LObj LBg; LClear]) =
    map OObj [OAcc 2 1; ORaised 2; ORaised 1; ORaised 0; OAcc 2 (-1); ODropped 2] ++ [OExn AttributeError].
Proof. split; vm_compute; reflexivity. Qed.
Print Assumptions C232_clear.
Print Assumptions C232_drains.
Print Assumptions C232_fatal.
Print Assumptions C232_ignored.
Print Assumptions C232_no_warning.
Print Assumptions C232_fresh.
