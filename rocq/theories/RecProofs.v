(** Proofs about recording. *)
From Coq Require Import ZArith List Bool Arith Lia.
From Verif Require Import Prelude RecModel RecSpec.
Import ListNotations.
Local Open Scope nat_scope.

Definition same (s s' : st) : Prop :=
  db s' = db s /\ nrec s' = nrec s /\ rec s' = rec s /\ reg s' = reg s /\ log s' = log s.

Inductive atom (p : bool) : st -> st -> Prop :=
| a_frame s s' : same s s' -> atom p s s'
| a_db s : db s = Never -> atom p s (set_db s Opened)
| a_stream s i : db s = Opened -> atom p s (add_log s (WStream i))
| a_new s i t ch : db s = Opened ->
    atom p s (add_log (set_reg (set_rec (set_nrec s (S (nrec s))) (nrec s) (Recorder LOpen t 0)) (nrec s) true)
                (WOpen (nrec s) i t ch))
| a_attr s r a : db s = Opened -> active (r_life (rec s r)) -> atom p s (add_log (set_reg s r true) (WAttr r a))
| a_close s r t : db s = Opened -> active (r_life (rec s r)) ->
    atom p s (set_rec (add_log (set_reg s r true) (WClose r t)) r (Recorder LClosed (r_topen (rec s r)) t))
| a_closec s r t : db s = Closed -> active (r_life (rec s r)) ->
    atom p s (set_rec s r (Recorder LClosed (r_topen (rec s r)) t))
| a_free s r : db s = Opened -> r_life (rec s r) = LClosed ->
    atom p s (set_reg (set_rec (add_log (set_reg s r true) (WFree r)) r (Recorder LFreed (r_topen (rec s r)) (r_tclose (rec s r)))) r false)
| a_freec s r : db s = Closed -> r_life (rec s r) = LClosed ->
    atom p s (set_reg (set_rec s r (Recorder LFreed (r_topen (rec s r)) (r_tclose (rec s r)))) r false)
| a_handle s r : r_life (rec s r) <> LNew -> (p = true -> r_life (rec s r) <> LFreed) -> atom p s (set_reg s r true).

Inductive atoms (p : bool) : st -> st -> Prop :=
| at_nil s : atoms p s s
| at_cons s s1 s2 : atom p s s1 -> atoms p s1 s2 -> atoms p s s2.
Lemma at_one p s s' : atom p s s' -> atoms p s s'.
Proof. intros H. eapply at_cons; [exact H|constructor]. Qed.
Lemma at_app p s s1 s2 : atoms p s s1 -> atoms p s1 s2 -> atoms p s s2.
Proof. induction 1; intros; auto. eapply at_cons; eauto. Qed.
Lemma at_snoc p s s1 s2 : atoms p s s1 -> atom p s1 s2 -> atoms p s s2.
Proof. intros H H1. eapply at_app; [exact H|now apply at_one]. Qed.
Lemma at_frame p s s' : same s s' -> atoms p s s'.
Proof. intros. apply at_one. now constructor. Qed.
Lemma same_tr s t x : same s (set_tr s t x). Proof. repeat split. Qed.
Lemma same_cmp s t x : same s (set_cmp s t x). Proof. repeat split. Qed.
Lemma same_nstr s x : same s (set_nstr s x). Proof. repeat split. Qed.
Lemma same_now s x : same s (set_now s x). Proof. repeat split. Qed.
#[local] Hint Resolve same_tr same_cmp same_nstr same_now at_frame at_nil at_one : rec.

Lemma open_db_at p s : atoms p s (fst (open_db s)).
Proof. unfold open_db. destruct (db s) eqn:E; cbn; try constructor. apply at_one. now constructor. Qed.
Lemma open_db_spec s s' b : open_db s = (s', b) ->
  rec s' = rec s /\ nrec s' = nrec s /\ reg s' = reg s /\ log s' = log s /\ now s' = now s /\ tr s' = tr s /\ cmp s' = cmp s /\
  nstr s' = nstr s /\ (b = true -> db s' = Opened) /\ (b = false -> db s' = Closed /\ s' = s).
Proof. unfold open_db. destruct (db s) eqn:E; intros H; injection H as <- <-; cbn; rewrite ?E; intuition congruence. Qed.
Lemma open_stream_at p s : atoms p s (fst (open_stream s)).
Proof.
  unfold open_stream. pose proof (open_db_at p s) as A. destruct (open_db s) as [s1 b] eqn:E. cbn in A.
  destruct b; [|exact A]. cbn. apply open_db_spec in E. destruct E as (_ & _ & _ & _ & _ & _ & _ & _ & E & _).
  eapply at_app; [exact A|]. eapply at_cons; [apply a_frame, (same_nstr s1 (S (nstr s1)))|]. apply at_one.
  apply a_stream. cbn. auto.
Qed.
Lemma get_handle_at p s r : (p = true -> r_life (rec s r) <> LFreed) -> atoms p s (fst (get_handle s r)).
Proof.
  intros H. unfold get_handle. destruct (r_life (rec s r)) eqn:E; cbn; try constructor; eapply at_one, a_handle; rewrite E; auto; congruence.
Qed.
Lemma get_handle_eq s r : r_life (rec s r) <> LNew -> get_handle s r = (set_reg s r true, Some r).
Proof. unfold get_handle. destruct (r_life (rec s r)); congruence. Qed.

(** [put] by cases *)
Lemma put_cases s r x : r_life (rec s r) <> LNew ->
  exists s1, put s r x = (if match db s1 with Opened => true | _ => false end then add_log (set_reg s1 r true) x else s1) /\
   db s1 <> Never /\ (forall p, atoms p s s1) /\ rec s1 = rec s /\ log s1 = log s /\ reg s1 = reg s /\ now s1 = now s /\ tr s1 = tr s /\ cmp s1 = cmp s /\
   nrec s1 = nrec s /\ nstr s1 = nstr s /\ (db s = Never -> db s1 = Opened) /\ (db s <> Never -> s1 = s).
Proof.
  intros H. unfold put. pose proof (fun p => open_db_at p s) as A. destruct (open_db s) as [s1 b] eqn:E. cbn in A.
  pose proof (open_db_spec _ _ _ E) as (H1 & H2 & H3 & H4 & H5 & H6 & H7 & H8 & H9 & H10).
  exists s1. unfold open_db in E.
  assert (r_life (rec s1 r) <> LNew) by now rewrite H1.
  destruct (db s) eqn:D; injection E as <- <-; cbn in *; rewrite ?D; rewrite ?get_handle_eq by auto; cbn; intuition congruence.
Qed.

Lemma attr_at p s r a : active (r_life (rec s r)) -> atoms p s (put s r (WAttr r a)).
Proof.
  intros H. destruct (put_cases s r (WAttr r a)) as (s1 & E & D & A & R & _). { destruct H; congruence. }
  rewrite E. destruct (db s1) eqn:D1; try congruence; auto. eapply at_snoc; [apply A|]. apply a_attr; auto. now rewrite R.
Qed.
Lemma put_life s r x r' : rec (put s r x) r' = rec s r'.
Proof.
  unfold put. destruct (open_db s) as [s1 b] eqn:E. apply open_db_spec in E. destruct E as (H1 & _).
  unfold get_handle. destruct b; cbn; rewrite ?H1; auto. destruct (r_life (rec s r)); cbn; now rewrite H1.
Qed.
Lemma record_life ats s r r' : rec (record s r ats) r' = rec s r'.
Proof.
  revert s. induction ats as [|a ats IH]; intros; cbn; auto. destruct (r_life (rec s r)); auto; rewrite IH; apply put_life.
Qed.
Lemma record_at p s r ats : atoms p s (record s r ats).
Proof.
  revert s. induction ats as [|a ats IH]; intros s; cbn; auto with rec.
  destruct (r_life (rec s r)) eqn:E; auto; (eapply at_app; [apply attr_at|apply IH]); unfold active; auto.
Qed.
Lemma close_at p s r t s' : close s r t = Some s' -> atoms p s s'.
Proof.
  unfold close. set (t' := if (t =? 0)%Z then now s else t).
  assert (B : active (r_life (rec s r)) -> atoms p s (set_rec (put s r (WClose r t')) r (Recorder LClosed (r_topen (rec (put s r (WClose r t')) r)) t'))).
  { intros H. destruct (put_cases s r (WClose r t')) as (s1 & E & D & A & R & _). { destruct H; congruence. }
    rewrite E. destruct (db s1) eqn:D1; try congruence.
    - eapply at_snoc; [apply A|]. apply (a_close p s1 r t'); auto. now rewrite R.
    - eapply at_snoc; [apply A|]. apply (a_closec p s1 r t'); auto. now rewrite R. }
  unfold active in B. destruct (r_life (rec s r)); intros H; try discriminate; injection H as <-; auto with rec.
Qed.
Lemma close_life s r t s' : close s r t = Some s' -> r_life (rec s r) <> LNew -> r_life (rec s' r) = LClosed.
Proof. unfold close. destruct (r_life (rec s r)); intros H; try discriminate; injection H as <-; intros; try congruence; cbn; now rewrite upd_eq. Qed.
Lemma freeing_at p s r : r_life (rec s r) = LClosed ->
  atoms p s (set_reg (set_rec (put s r (WFree r)) r (Recorder LFreed (r_topen (rec (put s r (WFree r)) r)) (r_tclose (rec (put s r (WFree r)) r)))) r false).
Proof.
  intros H. destruct (put_cases s r (WFree r)) as (s1 & E & D & A & R & _). { congruence. }
  rewrite E. destruct (db s1) eqn:D1; try congruence.
  - eapply at_snoc; [apply A|]. apply (a_free p s1 r); auto. now rewrite R.
  - eapply at_snoc; [apply A|]. apply (a_freec p s1 r); auto. now rewrite R.
Qed.
Lemma free_at p s r t s' : free s r t = Some s' -> atoms p s s'.
Proof.
  unfold free. destruct (r_life (rec s r)) eqn:E; intros H; try (injection H as <-; apply at_nil).
  - destruct (close s r t) as [s1|] eqn:C; [|discriminate]. injection H as <-.
    eapply at_app; [eapply close_at, C|]. apply freeing_at. eapply close_life; eauto. congruence.
  - injection H as <-. now apply freeing_at.
Qed.
Lemma free_some s r t : exists s', free s r t = Some s'.
Proof. unfold free, close. destruct (r_life (rec s r)); eauto. Qed.
Lemma open_recorder_at p s i t ch : atoms p s (fst (open_recorder s i t ch)).
Proof.
  unfold open_recorder. pose proof (open_db_at p s) as A. destruct (open_db s) as [s1 b] eqn:E. cbn in A.
  destruct b; [|exact A]. cbn [fst]. apply open_db_spec in E. destruct E as (_ & _ & _ & _ & _ & _ & _ & _ & E & _).
  eapply at_snoc; [exact A|]. specialize (E eq_refl).
  unfold put, open_db, get_handle. cbn. rewrite E. cbn. rewrite upd_eq. cbn. now apply a_new.
Qed.
Lemma open_recorder_life s i t ch s' r : open_recorder s i t ch = (s', Some r) ->
  r = nrec s /\ r_life (rec s' r) = LOpen /\ db s' = Opened.
Proof.
  unfold open_recorder. destruct (open_db s) as [s1 b] eqn:E. destruct b; intros H; [|discriminate]. injection H as <- <-.
  apply open_db_spec in E. destruct E as (_ & N & _ & _ & _ & _ & _ & _ & E & _). rewrite N. split; auto. specialize (E eq_refl).
  unfold put, open_db, get_handle. cbn. rewrite E. cbn. rewrite upd_eq. cbn. rewrite upd_eq. split; auto.
Qed.
Lemma establish_link_id s a b : establish_link s a b = s.
Proof. unfold establish_link. destruct a; cbn; auto. Qed.

Section Calls.
Context (attrs : nat -> list nat).

Ltac af := first [eassumption | apply at_nil | apply at_frame; auto with rec].
Lemma end_tr_at p s t time fr : atoms p s (fst (end_tr attrs s t time fr)).
Proof.
  unfold end_tr. set (e := if (time =? 0)%Z then now s else time).
  set (s1 := set_tr s t _).
  assert (A1 : atoms p s s1) by (apply at_frame, same_tr).
  destruct (t_stream (tr s t)), (t_rec (tr s t)) as [r|]; cbn [fst]; try (eapply at_app; [exact A1|apply at_frame, same_tr]).
  assert (A2 : atoms p s (record s1 r (attrs t))) by (eapply at_app; [exact A1|apply record_at]).
  destruct (close (record s1 r (attrs t)) r e) as [s2|] eqn:C; [|exact A2].
  assert (A3 : atoms p s s2) by (eapply at_app; [exact A2|eapply close_at, C]).
  destruct fr; [|cbn [fst]; eapply at_app; [exact A3|apply at_frame, same_tr]].
  destruct (free s2 r 0) as [s3|] eqn:F; [|exact A3].
  cbn [fst]; eapply at_app; [eapply at_app; [exact A3|eapply free_at, F]|apply at_frame, same_tr].
Qed.
Lemma begin_tr_at p s t time par : atoms p s (fst (fst (begin_tr attrs s t time par))).
Proof.
  unfold begin_tr. set (tmp := if (time =? 0)%Z then now s else time). set (ch := match from_handle s par with Some _ => true | None => false end).
  assert (A1 : atoms p s (fst (match t_rec (tr s t) with None => (s, true) | Some _ => end_tr attrs s t tmp true end))).
  { destruct (t_rec (tr s t)); [apply end_tr_at|apply at_nil]. }
  destruct (match t_rec (tr s t) with None => (s, true) | Some _ => end_tr attrs s t tmp true end) as [s1 ok]. cbn [fst] in A1.
  destruct ok; [|exact A1].
  destruct (t_stream (tr s1 t)) as [i|] eqn:T; [|cbn [fst]; eapply at_app; [exact A1|apply at_frame, same_tr]].
  set (s2 := set_tr s1 t _). pose proof (open_recorder_at p s2 i tmp ch) as A2.
  assert (A3 : atoms p s s2) by (eapply at_app; [exact A1|apply at_frame, same_tr]).
  destruct (open_recorder s2 i tmp ch) as [s3 [r|]] eqn:O; cbn [fst] in *.
  - pose proof (open_recorder_life _ _ _ _ _ _ O) as (_ & L & _). rewrite get_handle_eq by congruence. cbn [fst].
    eapply at_app; [exact A3|]. eapply at_app; [exact A2|]. eapply at_cons; [apply (a_handle p s3 r)|apply at_frame, same_tr]; try congruence; intros _; congruence.
  - eapply at_app; [exact A3|]. eapply at_app; [exact A2|]. apply at_frame, same_tr.
Qed.
Lemma get_tr_stream_at p s c n : atoms p s (fst (get_tr_stream s c n)).
Proof.
  unfold get_tr_stream. destruct (assocn n (c_streams (cmp s c))) as [x|]; [apply at_nil|].
  pose proof (open_stream_at p s) as A. destruct (open_stream s) as [s1 x]. cbn [fst] in *.
  eapply at_app; [exact A|apply at_frame, same_cmp].
Qed.
Lemma c_begin_at p s c t par q n lab time :
  (p = true -> forall r, q = Some r -> from_handle s par = None -> r_life (rec s r) <> LFreed) ->
  (p = true -> forall r, reg s r = true -> r_life (rec s r) <> LFreed) ->
  atoms p s (fst (fst (c_begin attrs s c t par q n lab time))).
Proof.
  intros Hq Hr. unfold c_begin.
  set (pp := match from_handle s par with Some r => Some r | None => q end).
  assert (A1 : atoms p s (fst (match pp with Some r => get_handle s r | None => (s, None) end))).
  { unfold pp. destruct (from_handle s par) as [r|] eqn:F.
    - apply get_handle_at. intros Hp. apply Hr; auto. destruct par as [h|]; cbn in F; [|discriminate].
      destruct (reg s h) eqn:G; [|discriminate]. now injection F as <-.
    - destruct q as [r|]; [|apply at_nil]. apply get_handle_at. intros Hp. eapply Hq; eauto. }
  destruct (match pp with Some r => get_handle s r | None => (s, None) end) as [s1 ph]. cbn [fst] in A1.
  pose proof (begin_tr_at p s1 t time ph) as A2. destruct (begin_tr attrs s1 t time ph) as [[s2 ok] link]. cbn [fst] in A2.
  assert (A3 : atoms p s s2) by (eapply at_app; eauto).
  destruct ok; [|exact A3].
  match goal with |- context [if c_on (cmp s2 c) then ?a else ?b] => set (B := if c_on (cmp s2 c) then a else b) end.
  assert (A4 : atoms p s (fst B)).
  { unfold B. destruct (c_on (cmp s2 c)); [|exact A3].
    set (SS := match n with None => match c_main (cmp s2 c) with None => let (s3, x) := open_stream s2 in (set_cmp s3 c (with_main (cmp s3 c) x), x) | Some _ => (s2, None) end
               | Some n => get_tr_stream s2 c n end).
    assert (A5 : atoms p s (fst SS)).
    { unfold SS. destruct n as [n|]; [eapply at_app; [exact A3|apply get_tr_stream_at]|].
      destruct (c_main (cmp s2 c)); [exact A3|]. pose proof (open_stream_at p s2) as A. destruct (open_stream s2) as [s3 x].
      cbn [fst] in *. eapply at_app; [exact A3|]. eapply at_app; [exact A|apply at_frame, same_cmp]. }
    destruct SS as [s3 [i|]]; [|exact A5]. cbn [fst] in A5.
    pose proof (open_recorder_at p s3 i time (match pp with Some _ => true | None => false end)) as A6.
    destruct (open_recorder s3 i time _) as [s4 [r|]] eqn:O; cbn [fst] in *; [|eapply at_app; eauto].
    pose proof (open_recorder_life _ _ _ _ _ _ O) as (_ & L & _).
    assert (X : forall s x, match pp with Some p0 => establish_link s (ORec p0) x | None => s end = s).
    { intros. destruct pp; [apply establish_link_id|reflexivity]. }
    rewrite X by auto.
    assert (Y : forall s x, match from_handle s link with Some l => establish_link s x (ORec l) | None => s end = s).
    { intros s5 x. destruct (from_handle s5 link); [apply establish_link_id|reflexivity]. }
    rewrite Y.
    eapply at_app; [exact A5|]. eapply at_app; [exact A6|]. eapply at_app; [apply (record_at p s4 r lab)|].
    eapply at_cons; [apply a_frame, same_cmp|]. apply get_handle_at. intros _. cbn. rewrite record_life. congruence. }
  destruct B as [s3 h]. cbn [fst] in *. eapply at_app; [exact A4|apply at_frame, same_cmp].
Qed.
Lemma c_end_at p s c t time fr :
  (p = true -> forall r, c_trh (cmp (fst (end_tr attrs s t time fr)) c) t = Some r -> r_life (rec (fst (end_tr attrs s t time fr)) r) <> LFreed) ->
  atoms p s (fst (c_end attrs s c t time fr)).
Proof.
  unfold c_end. pose proof (end_tr_at p s t time fr) as A1. destruct (end_tr attrs s t time fr) as [s1 ok]. cbn [fst] in *. intros H.
  destruct ok; [|exact A1].
  destruct (c_on (cmp s1 c)); [|cbn [fst]; eapply at_app; [exact A1|apply at_frame, same_cmp]].
  destruct (c_trh (cmp s1 c) t) as [r|] eqn:E; [|cbn [fst]; eapply at_app; [exact A1|apply at_frame, same_cmp]].
  set (s2 := fst (get_handle s1 r)). assert (A2 : atoms p s s2) by (eapply at_app; [exact A1|apply get_handle_at; auto]).
  set (s3 := set_cmp s2 c _). assert (A3 : atoms p s s3) by (eapply at_app; [exact A2|apply at_frame, same_cmp]).
  set (s4 := record s3 r (attrs t)). assert (A4 : atoms p s s4) by (eapply at_app; [exact A3|apply record_at]).
  destruct (close s4 r time) as [s5|] eqn:C; [|exact A4].
  assert (A5 : atoms p s s5) by (eapply at_app; [exact A4|eapply close_at, C]).
  destruct fr; [|cbn [fst]; eapply at_app; [exact A5|apply at_frame, same_cmp]].
  destruct (free s5 r 0) as [s6|] eqn:F; [|exact A5].
  cbn [fst]; eapply at_app; [eapply at_app; [exact A5|eapply free_at, F]|apply at_frame, same_cmp].
Qed.
Lemma c_event_at p s c n lab time keep : atoms p s (fst (fst (c_event s c n lab time keep))).
Proof.
  unfold c_event. set (tm := if (time =? 0)%Z then now s else time).
  set (SS := match n with None => match c_main (cmp s c) with None => let (s3, x) := open_stream s in (set_cmp s3 c (with_main (cmp s3 c) x), x) | Some i => (s, Some i) end
               | Some n => get_tr_stream s c n end).
  assert (A1 : atoms p s (fst SS)).
  { unfold SS. destruct n as [n|]; [apply get_tr_stream_at|].
    destruct (c_main (cmp s c)); [apply at_nil|]. pose proof (open_stream_at p s) as A. destruct (open_stream s) as [s3 x].
    cbn [fst] in *. eapply at_app; [exact A|apply at_frame, same_cmp]. }
  destruct SS as [s3 [i|]]; [|exact A1]. cbn [fst] in A1.
  pose proof (open_recorder_at p s3 i tm false) as A2.
  destruct (open_recorder s3 i tm false) as [s4 [r|]] eqn:O; cbn [fst] in *; [|eapply at_app; eauto].
  assert (A3 : atoms p s s4) by (eapply at_app; eauto).
  destruct (close (record s4 r lab) r tm) as [s5|] eqn:C; [|exact A3].
  assert (A4 : atoms p s s5) by (eapply at_app; [exact A3|]; eapply at_app; [apply record_at|eapply close_at, C]).
  destruct keep.
  - destruct (get_handle s5 r) as [s6 h] eqn:G. cbn [fst]. replace s6 with (fst (get_handle s5 r)) by now rewrite G.
    eapply at_app; [exact A4|]. apply get_handle_at. intros _.
    pose proof (open_recorder_life _ _ _ _ _ _ O) as (_ & L & _).
    rewrite (close_life _ _ _ _ C); [congruence|]. rewrite record_life. congruence.
  - destruct (free s5 r 0) as [s6|] eqn:F; [|exact A4]. cbn [fst]. eapply at_app; [exact A4|eapply free_at, F].
Qed.

Lemma step_at s c : c = CloseDb \/ atoms false s (fst (step attrs s c)).
Proof.
  destruct c; cbn [step fst]; auto with rec; try (right; auto with rec; fail);
    try (right; apply at_frame; first [apply same_tr|apply same_cmp]; fail).
  - right. pose proof (open_db_at false s). destruct (open_db s); auto.
  - right. pose proof (open_stream_at false s). destruct (open_stream s); auto.
  - right. destruct (i <? nstr s); [|apply at_nil]. pose proof (open_recorder_at false s i t false). destruct (open_recorder s i t false); auto.
  - right. apply record_at.
  - right. destruct (close s r t) eqn:C; [eapply close_at, C|apply at_nil].
  - right. destruct (free s r t) eqn:C; [eapply free_at, C|apply at_nil].
  - right. pose proof (get_handle_at false s r) as A. destruct (get_handle s r); apply A; discriminate.
  - right. rewrite establish_link_id. apply at_nil.
  - right. pose proof (begin_tr_at false s t time parent) as A. destruct (begin_tr attrs s t time parent) as [[? ?] ?]; auto.
  - right. pose proof (end_tr_at false s t time fr) as A. destruct (end_tr attrs s t time fr) as [? ?]; auto.
  - right. pose proof (get_tr_stream_at false s c n) as A. destruct (get_tr_stream s c n); auto.
  - right. pose proof (c_begin_at false s c t parent pseq name lab time) as A. destruct (c_begin attrs s c t parent pseq name lab time) as [[? ?] ?]; apply A; discriminate.
  - right. pose proof (c_end_at false s c t time fr) as A. destruct (c_end attrs s c t time fr); apply A; discriminate.
  - right. pose proof (c_event_at false s c name lab time keep) as A. destruct (c_event s c name lab time keep) as [[? ?] ?]; auto.
Qed.
End Calls.

(** ** What every history keeps *)
#[local] Arguments lines : simpl never.
Definition shape (x : recorder) (r : nat) (l : list line) : Prop :=
  match r_life x with
  | LNew => l = []
  | LOpen => open_lines r (r_topen x) l
  | LClosed => closed_lines r (r_topen x) (r_tclose x) l
  | LFreed => exists l', l = l' ++ [WFree r] /\ closed_lines r (r_topen x) (r_tclose x) l'
  end.
#[local] Arguments shape : simpl never.
Record wf (s : st) : Prop := {
  w_new : forall r, nrec s <= r -> rec s r = rec0 /\ lines r (log s) = [] /\ reg s r = false;
  w_old : forall r, r < nrec s -> r_life (rec s r) <> LNew;
  w_db : db s = Never -> nrec s = 0;
  w_shape : db s <> Closed -> forall r, shape (rec s r) r (lines r (log s));
  w_link : existsb link (log s) = false
}.
Lemma lines_app r a b : lines r (a ++ b) = lines r a ++ lines r b.
Proof. apply filter_app. Qed.
Lemma wf_init : wf init.
Proof. split; cbn; intros; auto; try lia; split; auto. Qed.
Lemma existsb_snoc {A} (f : A -> bool) l x : existsb f (l ++ [x]) = existsb f l || f x.
Proof. rewrite existsb_app. cbn. now rewrite orb_false_r. Qed.
Lemma open_attr r t l a : open_lines r t l -> open_lines r t (l ++ [WAttr r a]).
Proof. intros (i & ch & ats & -> & F). exists i, ch, (ats ++ [WAttr r a]). split; auto. apply Forall_app. split; auto. constructor; cbn; auto. Qed.
Lemma closed_attr r t e l a : closed_lines r t e l -> closed_lines r t e (l ++ [WAttr r a]).
Proof.
  intros (i & ch & mid & ats & -> & F & G). exists i, ch, mid, (ats ++ [WAttr r a]). split.
  - cbn. now rewrite <- app_assoc.
  - split; auto. apply Forall_app. split; auto. constructor; cbn; auto.
Qed.
Lemma open_close r t l e : open_lines r t l -> closed_lines r t e (l ++ [WClose r e]).
Proof.
  intros (i & ch & ats & -> & F). exists i, ch, ats, []. split; auto. split; auto.
  eapply Forall_impl; [|exact F]. intros []; cbn; auto.
Qed.
Lemma closed_close r t e l e' : closed_lines r t e l -> closed_lines r t e' (l ++ [WClose r e']).
Proof.
  intros (i & ch & mid & ats & -> & F & G). exists i, ch, (mid ++ WClose r e :: ats), []. split; [now cbn|]. split; auto.
  apply Forall_app. split; auto. constructor; cbn; auto. eapply Forall_impl; [|exact G]. intros []; cbn; auto.
Qed.
Ltac upd_case r' r := destruct (Nat.eq_dec r' r) as [->|?]; [rewrite ?upd_eq in *|rewrite ?upd_neq in * by auto].
Lemma atom_wf p s s' : atom p s s' -> wf s -> wf s'.
Proof.
  intros A W. destruct W as [Wn Wo Wd Ws Wl]. destruct A.
  - destruct H as (H1 & H2 & H3 & H4 & H5). split; intros; rewrite ?H1, ?H2, ?H3, ?H4, ?H5 in *; auto.
  - split; cbn; intros; auto; try discriminate. apply Ws; congruence.
  - split; cbn; intros; auto; try (rewrite lines_app, app_nil_r); auto.
    now rewrite existsb_snoc, Wl.
  - split; cbn; intros; auto.
    + rewrite !upd_neq by lia. destruct (Wn r) as (E & F & G); [lia|]. rewrite lines_app, F. unfold lines; cbn.
      destruct (Nat.eqb_spec (nrec s) r); [lia|]. auto.
    + upd_case r (nrec s); [now cbn|]. apply Wo. lia.
    + congruence.
    + rewrite lines_app. unfold lines at 2; cbn. upd_case r (nrec s).
      * destruct (Wn (nrec s)) as (E & F & G); [lia|]. rewrite F, Nat.eqb_refl. cbn. exists i, ch, []. auto.
      * destruct (Nat.eqb_spec (nrec s) r); [congruence|]. rewrite app_nil_r. apply Ws. auto.
    + now rewrite existsb_snoc, Wl.
  - assert (L : r < nrec s). { destruct (le_lt_dec (nrec s) r) as [l|]; auto. apply Wn in l. destruct l as (E & _). rewrite E in H0. destruct H0; discriminate. }
    split; cbn; intros; auto.
    + rewrite upd_neq by lia. destruct (Wn r0) as (E & F & G); auto. rewrite lines_app, F. unfold lines; cbn.
      destruct (Nat.eqb_spec r r0); [lia|]. auto.
    + rewrite lines_app. unfold lines at 2; cbn. destruct (Nat.eqb_spec r r0) as [<-|]; [|rewrite app_nil_r; auto].
      specialize (Ws H1 r). unfold shape in *. destruct H0 as [E|E]; rewrite E in *; auto using open_attr, closed_attr.
    + now rewrite existsb_snoc, Wl.
  - assert (L : r < nrec s). { destruct (le_lt_dec (nrec s) r) as [l|]; auto. apply Wn in l. destruct l as (E & _). rewrite E in H0. destruct H0; discriminate. }
    split; cbn; intros; auto.
    + rewrite !upd_neq by lia. destruct (Wn r0) as (E & F & G); auto. rewrite lines_app, F. unfold lines; cbn.
      destruct (Nat.eqb_spec r r0); [lia|]. auto.
    + upd_case r0 r; [now cbn|auto].
    + rewrite lines_app. unfold lines at 2; cbn. destruct (Nat.eqb_spec r r0) as [<-|]; [|rewrite app_nil_r, upd_neq by auto; auto].
      rewrite upd_eq. specialize (Ws H1 r). unfold shape in *. cbn. destruct H0 as [E|E]; rewrite E in *; eauto using open_close, closed_close.
    + now rewrite existsb_snoc, Wl.
  - assert (L : r < nrec s). { destruct (le_lt_dec (nrec s) r) as [l|]; auto. apply Wn in l. destruct l as (E & _). rewrite E in H0. destruct H0; discriminate. }
    split; cbn; intros; auto.
    + rewrite !upd_neq by lia. auto.
    + upd_case r0 r; [now cbn|auto].
    + congruence.
  - assert (L : r < nrec s). { destruct (le_lt_dec (nrec s) r) as [l|]; auto. apply Wn in l. destruct l as (E & _). rewrite E in H0. discriminate. }
    split; cbn; intros; auto.
    + rewrite !upd_neq by lia. destruct (Wn r0) as (E & F & G); auto. rewrite lines_app, F. unfold lines; cbn.
      destruct (Nat.eqb_spec r r0); [lia|]. auto.
    + upd_case r0 r; [now cbn|auto].
    + rewrite lines_app. unfold lines at 2; cbn. destruct (Nat.eqb_spec r r0) as [<-|]; [|rewrite app_nil_r, upd_neq by auto; auto].
      rewrite upd_eq. specialize (Ws H1 r). unfold shape in *. cbn. rewrite H0 in Ws. eauto.
    + now rewrite existsb_snoc, Wl.
  - assert (L : r < nrec s). { destruct (le_lt_dec (nrec s) r) as [l|]; auto. apply Wn in l. destruct l as (E & _). rewrite E in H0. discriminate. }
    split; cbn; intros; auto.
    + rewrite !upd_neq by lia. auto.
    + upd_case r0 r; [now cbn|auto].
    + congruence.
  - assert (L : r < nrec s). { destruct (le_lt_dec (nrec s) r) as [l|]; auto. apply Wn in l. destruct l as (E & _). rewrite E in H. now destruct H. }
    split; cbn; intros; auto.
    rewrite !upd_neq by lia. auto.
Qed.
Lemma atoms_wf p s s' : atoms p s s' -> wf s -> wf s'.
Proof. induction 1; eauto using atom_wf. Qed.
Lemma close_db_wf s : wf s -> wf (close_db s).
Proof.
  intros W. unfold close_db. destruct (db s) eqn:E; auto. destruct W as [Wn Wo Wd Ws Wl].
  split; cbn; intros; auto; congruence.
Qed.
Lemma step_wf attrs s c : wf s -> wf (fst (step attrs s c)).
Proof. intros W. destruct (step_at attrs s c) as [->|A]; [now apply close_db_wf|eapply atoms_wf; eauto]. Qed.
Lemma run_wf attrs cs s : wf s -> wf (run attrs s cs).
Proof. revert s. induction cs; cbn; auto using step_wf. Qed.

Lemma atom_rank p s s' r : atom p s s' -> wf s -> rank (r_life (rec s r)) <= rank (r_life (rec s' r)).
Proof.
  intros A W. destruct A; cbn; auto.
  - destruct H as (_ & _ & -> & _). auto.
  - upd_case r (nrec s); auto. destruct (w_new _ W (nrec s)) as (E & _); auto. rewrite E. cbn. lia.
  - upd_case r r0; auto. destruct H0 as [E|E]; rewrite E; cbn; lia.
  - upd_case r r0; auto. destruct H0 as [E|E]; rewrite E; cbn; lia.
  - upd_case r r0; auto. rewrite H0; cbn; lia.
  - upd_case r r0; auto. rewrite H0; cbn; lia.
Qed.
Lemma atoms_rank p s s' r : atoms p s s' -> wf s -> rank (r_life (rec s r)) <= rank (r_life (rec s' r)).
Proof. induction 1; intros; auto. etransitivity; [eapply atom_rank; eauto|]. apply IHatoms. eapply atom_wf; eauto. Qed.
Lemma step_rank attrs s c r : wf s -> rank (r_life (rec s r)) <= rank (r_life (rec (fst (step attrs s c)) r)).
Proof.
  intros W. destruct (step_at attrs s c) as [->|A]; [|eapply atoms_rank; eauto]. cbn. unfold close_db. destruct (db s); auto.
Qed.
Lemma run_rank attrs cs s r : wf s -> rank (r_life (rec s r)) <= rank (r_life (rec (run attrs s cs) r)).
Proof. revert s. induction cs; cbn; intros; auto. etransitivity; [apply (step_rank attrs s a); auto|]. apply IHcs. now apply step_wf. Qed.

Lemma atom_closed p s s' : atom p s s' -> db s = Closed -> db s' = Closed /\ log s' = log s /\ nrec s' = nrec s.
Proof. intros A E. destruct A; cbn; try congruence; auto. destruct H as (-> & -> & _ & _ & ->). auto. Qed.
Lemma atoms_closed p s s' : atoms p s s' -> db s = Closed -> db s' = Closed /\ log s' = log s /\ nrec s' = nrec s.
Proof. induction 1; intros; auto. destruct (atom_closed _ _ _ H H1) as (A & B & C). destruct (IHatoms A) as (D & E & F). intuition congruence. Qed.
Lemma run_closed attrs cs s : db s = Closed -> db (run attrs s cs) = Closed /\ log (run attrs s cs) = log s /\ nrec (run attrs s cs) = nrec s.
Proof.
  revert s. induction cs as [|c cs IH]; cbn; intros s H; auto.
  assert (B : db (fst (step attrs s c)) = Closed /\ log (fst (step attrs s c)) = log s /\ nrec (fst (step attrs s c)) = nrec s).
  { destruct (step_at attrs s c) as [->|A]; [cbn; unfold close_db; rewrite H; auto|eapply atoms_closed; eauto]. }
  destruct B as (B1 & B2 & B3). destruct (IH _ B1) as (C1 & C2 & C3). intuition congruence.
Qed.

(** ** Handles *)
Definition handles (s : st) : Prop := forall r, reg s r = true <-> active (r_life (rec s r)).
Lemma atom_handles s s' : atom true s s' -> wf s -> handles s -> handles s'.
Proof.
  intros A W H r. unfold active in *. destruct A; cbn; try apply H.
  - destruct H0 as (_ & _ & -> & -> & _). apply H.
  - upd_case r (nrec s); [cbn; intuition|apply H].
  - upd_case r r0; [tauto|apply H].
  - upd_case r r0; [cbn; tauto|apply H].
  - upd_case r r0; [|apply H]. cbn. rewrite (H r0). unfold active. tauto.
  - upd_case r r0; [cbn; intuition discriminate|apply H].
  - upd_case r r0; [cbn; intuition discriminate|apply H].
  - upd_case r r0; [|apply H]. specialize (H1 eq_refl). destruct (r_life (rec s r0)); intuition congruence.
Qed.
Lemma atoms_handles s s' : atoms true s s' -> wf s -> handles s -> handles s'.
Proof. induction 1; eauto using atom_handles, atom_wf. Qed.

Lemma close_rec_other s r t s' r' : close s r t = Some s' -> r' <> r -> rec s' r' = rec s r'.
Proof.
  unfold close. destruct (r_life (rec s r)); intros H N; try discriminate; injection H as <-; auto; cbn; rewrite upd_neq by auto; apply put_life.
Qed.
Lemma free_rec_other s r t s' r' : free s r t = Some s' -> r' <> r -> rec s' r' = rec s r'.
Proof.
  unfold free. destruct (r_life (rec s r)); intros H N; try (injection H as <-; auto).
  - destruct (close s r t) as [s1|] eqn:C; [|discriminate]. injection H as <-. cbn. rewrite upd_neq, put_life by auto.
    eapply close_rec_other; eauto.
  - cbn. rewrite upd_neq, put_life by auto. auto.
Qed.
Lemma record_cmp ats s r : cmp (record s r ats) = cmp s /\ tr (record s r ats) = tr s /\ now (record s r ats) = now s.
Proof.
  assert (P : forall s r x, cmp (put s r x) = cmp s /\ tr (put s r x) = tr s /\ now (put s r x) = now s).
  { intros s0 r0 x. unfold put. destruct (open_db s0) as [s1 b] eqn:E. apply open_db_spec in E.
    destruct E as (_ & _ & _ & _ & H1 & H2 & H3 & _). unfold get_handle. destruct b; cbn; auto.
    destruct (r_life (rec s1 r0)); cbn; auto. }
  revert s. induction ats as [|a ats IH]; intros s; cbn; auto. destruct (r_life (rec s r)); auto;
  destruct (IH (put s r (WAttr r a))) as (-> & -> & ->); apply P.
Qed.
Lemma put_cmp s r x : cmp (put s r x) = cmp s /\ tr (put s r x) = tr s /\ now (put s r x) = now s.
Proof.
  unfold put. destruct (open_db s) as [s1 b] eqn:E. apply open_db_spec in E.
  destruct E as (_ & _ & _ & _ & H1 & H2 & H3 & _). unfold get_handle. destruct b; cbn; auto.
  destruct (r_life (rec s1 r)); cbn; auto.
Qed.
Lemma close_cmp s r t s' : close s r t = Some s' -> cmp s' = cmp s /\ tr s' = tr s /\ now s' = now s.
Proof. unfold close. destruct (r_life (rec s r)); intros H; try discriminate; injection H as <-; auto; cbn; apply put_cmp. Qed.
Lemma free_cmp s r t s' : free s r t = Some s' -> cmp s' = cmp s /\ tr s' = tr s /\ now s' = now s.
Proof.
  unfold free. destruct (r_life (rec s r)); intros H; try (injection H as <-; auto; cbn; apply put_cmp).
  destruct (close s r t) as [s1|] eqn:C; [|discriminate]. injection H as <-. apply close_cmp in C. cbn.
  destruct C as (<- & <- & <-). apply put_cmp.
Qed.
Lemma end_tr_frame attrs s t time fr r' : t_rec (tr s t) <> Some r' ->
  rec (fst (end_tr attrs s t time fr)) r' = rec s r'.
Proof.
  intros N. unfold end_tr. set (s1 := set_tr s t _). destruct (t_stream (tr s t)), (t_rec (tr s t)) as [r|]; auto.
  assert (r' <> r) by congruence.
  destruct (close (record s1 r (attrs t)) r _) as [s2|] eqn:C; [|cbn [fst]; now rewrite record_life].
  assert (E2 : rec s2 r' = rec s r') by (rewrite (close_rec_other _ _ _ _ _ C), record_life by auto; auto).
  destruct fr; auto. destruct (free s2 r 0) as [s3|] eqn:F; auto. cbn.
  rewrite (free_rec_other _ _ _ _ _ F) by auto. auto.
Qed.
Lemma end_tr_cmp attrs s t time fr : cmp (fst (end_tr attrs s t time fr)) = cmp s.
Proof.
  unfold end_tr. set (s1 := set_tr s t _). destruct (t_stream (tr s t)), (t_rec (tr s t)) as [r|]; auto.
  assert (E1 : cmp (record s1 r (attrs t)) = cmp s) by (destruct (record_cmp (attrs t) s1 r) as (-> & _); auto).
  destruct (close (record s1 r (attrs t)) r _) as [s2|] eqn:C; auto.
  apply close_cmp in C. destruct C as (C & _).
  destruct fr; [|cbn; congruence]. destruct (free s2 r 0) as [s3|] eqn:F; [|cbn; congruence].
  apply free_cmp in F. destruct F as (F & _). cbn. congruence.
Qed.

Section Handles.
Context (attrs : nat -> list nat).
Lemma step_handles s c : wf s -> handles s -> polite s c -> handles (fst (step attrs s c)).
Proof.
  intros W H P.
  assert (R : forall r, reg s r = true -> r_life (rec s r) <> LFreed).
  { intros r E. apply H in E. destruct E; congruence. }
  destruct c; cbn [step fst] in *.
  all: try (eapply atoms_handles; [|exact W|exact H]; auto with rec; fail).
  all: try (eapply atoms_handles; [|exact W|exact H]; apply at_frame; first [apply same_tr|apply same_cmp]; fail).
  - pose proof (open_db_at true s). destruct (open_db s). eapply atoms_handles; eauto.
  - unfold close_db. destruct (db s); auto.
  - pose proof (open_stream_at true s). destruct (open_stream s). eapply atoms_handles; eauto.
  - destruct (i <? nstr s); auto. pose proof (open_recorder_at true s i t false). destruct (open_recorder s i t false). eapply atoms_handles; eauto.
  - eapply atoms_handles; eauto. apply record_at.
  - destruct (close s r t) eqn:C; auto. apply (close_at true) in C. eapply atoms_handles; eauto.
  - destruct (free s r t) eqn:C; auto. apply (free_at true) in C. eapply atoms_handles; eauto.
  - pose proof (get_handle_at true s r (fun _ => P)). destruct (get_handle s r). eapply atoms_handles; eauto.
  - now rewrite establish_link_id.
  - pose proof (begin_tr_at attrs true s t time parent) as A. destruct (begin_tr attrs s t time parent) as [[? ?] ?]. eapply atoms_handles; eauto.
  - pose proof (end_tr_at attrs true s t time fr) as A. destruct (end_tr attrs s t time fr) as [? ?]. eapply atoms_handles; eauto.
  - pose proof (get_tr_stream_at true s c n) as A. destruct (get_tr_stream s c n). eapply atoms_handles; eauto.
  - pose proof (c_begin_at attrs true s c t parent pseq name lab time) as A. destruct (c_begin attrs s c t parent pseq name lab time) as [[? ?] ?].
    eapply atoms_handles; eauto. apply A; auto. intros _ r -> _. apply P.
  - pose proof (c_end_at attrs true s c t time fr) as A. destruct (c_end attrs s c t time fr).
    eapply atoms_handles; eauto. apply A. intros _ r. rewrite end_tr_cmp. intros E. cbn in P. rewrite E in P. destruct P as (P1 & P2).
    rewrite end_tr_frame by auto. auto.
  - pose proof (c_event_at true s c name lab time keep) as A. destruct (c_event s c name lab time keep) as [[? ?] ?]. eapply atoms_handles; eauto.
Qed.
Lemma run_handles cs s : wf s -> handles s -> all_polite attrs s cs -> handles (run attrs s cs).
Proof. revert s. induction cs; cbn; intros s W H P; auto. destruct P. apply IHcs; auto using step_wf, step_handles. Qed.
End Handles.

(** ** Exact effects while the database is open *)
Record touch (r : nat) (ls : list line) (s s' : st) : Prop := {
  to_db : db s' = db s; to_nrec : nrec s' = nrec s; to_nstr : nstr s' = nstr s; to_now : now s' = now s;
  to_tr : tr s' = tr s; to_cmp : cmp s' = cmp s; to_log : log s' = log s ++ ls;
  to_rec : forall r', r' <> r -> rec s' r' = rec s r'
}.
Lemma touch_trans r a b s s1 s2 : touch r a s s1 -> touch r b s1 s2 -> touch r (a ++ b) s s2.
Proof.
  intros A B. destruct A, B. split; try congruence.
  - rewrite to_log1, to_log0. now rewrite app_assoc.
  - intros. rewrite to_rec1, to_rec0; auto.
Qed.
Lemma put_open s r x : db s = Opened -> r_life (rec s r) <> LNew -> put s r x = add_log (set_reg s r true) x.
Proof. intros D L. unfold put, open_db. rewrite D, get_handle_eq by auto. reflexivity. Qed.
Lemma put_touch s r x : db s = Opened -> r_life (rec s r) <> LNew -> touch r [x] s (put s r x).
Proof. intros D L. rewrite put_open by auto. split; cbn; auto. Qed.
Lemma active_new x : active x -> x <> LNew. Proof. intros []; congruence. Qed.
Lemma record_touch ats s r : db s = Opened -> active (r_life (rec s r)) ->
  touch r (map (WAttr r) ats) s (record s r ats).
Proof.
  revert s. induction ats as [|a ats IH]; intros s D L; cbn [record map].
  - split; auto. now rewrite app_nil_r.
  - pose proof (active_new _ L) as N. pose proof (put_touch s r (WAttr r a) D N) as T.
    assert (U : touch r (map (WAttr r) ats) (put s r (WAttr r a)) (record (put s r (WAttr r a)) r ats)).
    { apply IH; [now rewrite (to_db _ _ _ _ T)|now rewrite put_life]. }
    pose proof (touch_trans _ _ _ _ _ _ T U) as V. destruct L as [E|E]; rewrite E; exact V.
Qed.
Lemma close_touch s r t : db s = Opened -> active (r_life (rec s r)) ->
  exists s', close s r t = Some s' /\ touch r [WClose r (if (t =? 0)%Z then now s else t)] s s' /\
    rec s' r = Recorder LClosed (r_topen (rec s r)) (if (t =? 0)%Z then now s else t).
Proof.
  intros D L. unfold close. set (e := if (t =? 0)%Z then now s else t).
  pose proof (active_new _ L) as N. pose proof (put_touch s r (WClose r e) D N) as T.
  exists (set_rec (put s r (WClose r e)) r (Recorder LClosed (r_topen (rec (put s r (WClose r e)) r)) e)).
  split; [|split].
  - destruct L as [E|E]; rewrite E; auto.
  - destruct T. split; cbn; auto. intros. rewrite upd_neq by auto. apply put_life.
  - cbn. rewrite upd_eq. now rewrite put_life.
Qed.
Lemma free_touch s r t : db s = Opened -> r_life (rec s r) = LClosed ->
  exists s', free s r t = Some s' /\ touch r [WFree r] s s' /\
    rec s' r = Recorder LFreed (r_topen (rec s r)) (r_tclose (rec s r)).
Proof.
  intros D L. unfold free. rewrite L. assert (N : r_life (rec s r) <> LNew) by congruence.
  pose proof (put_touch s r (WFree r) D N) as T.
  eexists. split; [reflexivity|]. split.
  - destruct T. split; cbn; auto. intros. rewrite upd_neq by auto. apply put_life.
  - cbn. rewrite upd_eq. now rewrite put_life.
Qed.
Lemma end_tr_eff attrs s t time fr i r :
  db s = Opened -> t_stream (tr s t) = Some i -> t_rec (tr s t) = Some r -> active (r_life (rec s r)) ->
  let e := if (time =? 0)%Z then now s else time in
  exists s', end_tr attrs s t time fr = (s', true) /\ db s' = Opened /\ nrec s' = nrec s /\ nstr s' = nstr s /\ now s' = now s /\ cmp s' = cmp s /\
    log s' = log s ++ end_lines attrs t r e fr /\
    (forall r', r' <> r -> rec s' r' = rec s r') /\
    r_life (rec s' r) = (if fr then LFreed else LClosed) /\
    (forall t', t' <> t -> tr s' t' = tr s t') /\
    t_stream (tr s' t) = Some i /\ t_rec (tr s' t) = None /\ t_begin (tr s' t) = t_begin (tr s t) /\ t_end (tr s' t) = e /\
    t_nend (tr s' t) = S (t_nend (tr s t)) /\ t_nbegin (tr s' t) = t_nbegin (tr s t).
Proof.
  intros D TS TR L e. unfold end_tr. fold e. set (s1 := set_tr s t _). rewrite TS, TR.
  assert (D1 : db s1 = Opened) by exact D. assert (L1 : active (r_life (rec s1 r))) by exact L.
  pose proof (record_touch (attrs t) s1 r D1 L1) as T2. set (s2 := record s1 r (attrs t)) in *.
  destruct (close_touch s2 r e) as (s3 & E3 & T3 & R3).
  { now rewrite (to_db _ _ _ _ T2). } { unfold s2. now rewrite record_life. }
  rewrite E3. assert (He : (if (e =? 0)%Z then now s2 else e) = e).
  { rewrite (to_now _ _ _ _ T2). unfold s1, e. cbn. destruct (Z.eqb_spec time 0) as [->|N].
    - now destruct (now s =? 0)%Z.
    - destruct (Z.eqb_spec time 0); congruence. }
  rewrite He in *.
  pose proof (touch_trans _ _ _ _ _ _ T2 T3) as T4.
  destruct fr.
  - destruct (free_touch s3 r 0%Z) as (s4 & E4 & T5 & R4). { now rewrite (to_db _ _ _ _ T4). } { now rewrite R3. }
    rewrite E4. pose proof (touch_trans _ _ _ _ _ _ T4 T5) as T6. destruct T6 as [a b c d f g h k].
    eexists. split; [reflexivity|]. cbn. rewrite ?upd_eq. cbn. rewrite a, b, c, d, g, h.
    repeat match goal with |- _ /\ _ => split end; auto.
    + unfold end_lines, s1. cbn. now rewrite <- app_assoc.
    + now rewrite R4.
    + intros t' N. rewrite upd_neq by auto. rewrite f. unfold s1. cbn. now rewrite upd_neq.
  - destruct T4 as [a b c d f g h k].
    eexists. split; [reflexivity|]. cbn. rewrite ?upd_eq. cbn. rewrite a, b, c, d, g, h.
    repeat match goal with |- _ /\ _ => split end; auto.
    + now rewrite R3.
    + intros t' N. rewrite upd_neq by auto. rewrite f. unfold s1. cbn. now rewrite upd_neq.
Qed.

Lemma open_recorder_eff s i t ch : db s <> Closed ->
  exists s', open_recorder s i t ch = (s', Some (nrec s)) /\ db s' = Opened /\ nrec s' = S (nrec s) /\ nstr s' = nstr s /\ now s' = now s /\
    tr s' = tr s /\ cmp s' = cmp s /\ log s' = log s ++ [WOpen (nrec s) i (if (t =? 0)%Z then now s else t) ch] /\
    (forall r', r' <> nrec s -> rec s' r' = rec s r' /\ reg s' r' = reg s r') /\
    rec s' (nrec s) = Recorder LOpen (if (t =? 0)%Z then now s else t) 0 /\ reg s' (nrec s) = true.
Proof.
  intros D. unfold open_recorder. destruct (open_db s) as [s1 b] eqn:E.
  assert (b = true) as ->. { unfold open_db in E. destruct (db s); congruence. }
  apply open_db_spec in E. destruct E as (E1 & E2 & E3 & E4 & E5 & E6 & E7 & E8 & E9 & _). specialize (E9 eq_refl).
  eexists. rewrite put_open; [|now cbn|cbn; now rewrite upd_eq]. rewrite E2. split; [reflexivity|]. cbn.
  rewrite ?upd_eq. rewrite ?E1, ?E3, ?E4, ?E5, ?E6, ?E7, ?E8, ?E9.
  repeat match goal with |- _ /\ _ => split end; auto. intros r' N. now rewrite !upd_neq.
Qed.

(** ** Histories of transactions *)
Section Trans.
Context (attrs : nat -> list nat).
Definition finished (s : st) (r : nat) : Prop :=
  exists i b ch t e fr, r_life (rec s r) = (if fr : bool then LFreed else LClosed) /\
    lines r (log s) = WOpen r i b ch :: end_lines attrs t r e fr.
Definition held (s : st) (t r : nat) : Prop :=
  t_rec (tr s t) = Some r /\ r_life (rec s r) = LOpen /\ exists i ch, lines r (log s) = [WOpen r i (t_begin (tr s t)) ch].
Record ti (s : st) : Prop := {
  ti_wf : wf s;
  ti_db : db s <> Closed;
  ti_rec : forall t r, t_rec (tr s t) = Some r -> r < nrec s /\ held s t r /\ t_stream (tr s t) <> None;
  ti_inj : forall t t' r, t_rec (tr s t) = Some r -> t_rec (tr s t') = Some r -> t = t';
  ti_all : forall r, r < nrec s -> (exists t, t_rec (tr s t) = Some r) \/ finished s r
}.
Lemma ti_opened s : ti s -> 0 < nrec s -> db s = Opened.
Proof. intros [W D _ _ _] N. destruct (db s) eqn:E; try congruence. pose proof (w_db _ W E). lia. Qed.
Lemma ti_init : ti init.
Proof. split; cbn; intros; try discriminate; try lia. apply wf_init. Qed.

Definition wfree (r : nat) (ls : list line) := lines r ls = [].
Lemma lines_end r t r' e fr : r <> r' -> lines r (end_lines attrs t r' e fr) = [].
Proof.
  intros N. unfold end_lines. rewrite lines_app.
  assert (A : lines r (map (WAttr r') (attrs t)) = []).
  { induction (attrs t) as [|a l IH]; cbn; auto. unfold lines in *. cbn. destruct (Nat.eqb_spec r' r); [congruence|auto]. }
  rewrite A. unfold lines. cbn. destruct (Nat.eqb_spec r' r); [congruence|]. destruct fr; cbn; auto. destruct (Nat.eqb_spec r' r); [congruence|auto].
Qed.
Lemma lines_end_self r t e fr : lines r (end_lines attrs t r e fr) = end_lines attrs t r e fr.
Proof.
  unfold end_lines. rewrite lines_app.
  assert (A : lines r (map (WAttr r) (attrs t)) = map (WAttr r) (attrs t)).
  { induction (attrs t) as [|a l IH]; cbn; auto. unfold lines in *. cbn. rewrite Nat.eqb_refl. now rewrite IH. }
  rewrite A. unfold lines. cbn. rewrite Nat.eqb_refl. destruct fr; cbn; auto. now rewrite Nat.eqb_refl.
Qed.

(** a change that concerns neither recorders nor which recorder a transaction holds *)
Lemma ti_frame s s' : ti s -> wf s' -> db s' <> Closed -> nrec s' = nrec s -> rec s' = rec s ->
  (forall r, lines r (log s') = lines r (log s)) ->
  (forall t, t_rec (tr s' t) = t_rec (tr s t) /\ t_begin (tr s' t) = t_begin (tr s t)) ->
  (forall t, t_stream (tr s t) <> None -> t_stream (tr s' t) <> None) -> ti s'.
Proof.
  intros [W D R I A] W' D' N E L T TS. split; auto.
  - intros t r H. rewrite (proj1 (T t)) in H. destruct (R t r H) as (R1 & (R2 & R3 & i & ch & R4) & R5).
    split; [lia|]. split; [|auto]. split; [now rewrite (proj1 (T t))|]. rewrite E. split; auto. exists i, ch. rewrite L, (proj2 (T t)). auto.
  - intros t t' r H H'. rewrite (proj1 (T t)) in H. rewrite (proj1 (T t')) in H'. eauto.
  - intros r H. rewrite N in H. destruct (A r H) as [[t Ht]|F].
    + left. exists t. now rewrite (proj1 (T t)).
    + right. destruct F as (i & b & ch & t & e & fr & F1 & F2). exists i, b, ch, t, e, fr. rewrite E, L. auto.
Qed.

Lemma ti_end s t time fr : ti s -> ti (fst (end_tr attrs s t time fr)) /\ snd (end_tr attrs s t time fr) = true /\
  t_rec (tr (fst (end_tr attrs s t time fr)) t) = None /\
  now (fst (end_tr attrs s t time fr)) = now s /\
  t_stream (tr (fst (end_tr attrs s t time fr)) t) = t_stream (tr s t) /\
  t_end (tr (fst (end_tr attrs s t time fr)) t) = (if (time =? 0)%Z then now s else time) /\
  t_nend (tr (fst (end_tr attrs s t time fr)) t) = S (t_nend (tr s t)) /\
  t_nbegin (tr (fst (end_tr attrs s t time fr)) t) = t_nbegin (tr s t) /\
  (forall t', t' <> t -> tr (fst (end_tr attrs s t time fr)) t' = tr s t') /\
  log (fst (end_tr attrs s t time fr)) = log s ++
    match t_rec (tr s t) with Some r => end_lines attrs t r (if (time =? 0)%Z then now s else time) fr | None => [] end /\
  nrec (fst (end_tr attrs s t time fr)) = nrec s.
Proof.
  intros T. pose proof (atoms_wf _ _ _ (end_tr_at attrs false s t time fr) (ti_wf _ T)) as W'.
  destruct (t_rec (tr s t)) as [r|] eqn:E.
  - destruct (ti_rec _ T t r E) as (R1 & (R2 & R3 & i & ch & R4) & R5).
    assert (D : db s = Opened) by (apply ti_opened; auto; lia).
    destruct (t_stream (tr s t)) as [k|] eqn:S1; [|congruence].
    destruct (end_tr_eff attrs s t time fr k r D S1 E (or_introl R3)) as (s' & Es & D' & N' & Ns & Nw & Cm & Lg & Rc & Rl & Tr & T1 & T2 & T3 & T4 & T5 & T6).
    rewrite Es in *. cbn [fst snd] in *.
    split; [|repeat match goal with |- _ /\ _ => split end; auto].
    split; auto; [congruence| | |].
    + intros t' r' H. assert (t' <> t) by congruence. rewrite Tr in H by auto.
      assert (r' <> r). { intros ->. apply H0. eapply (ti_inj _ T); eauto. }
      destruct (ti_rec _ T t' r' H) as (Q1 & (Q2 & Q3 & i' & ch' & Q4) & Q5).
      unfold held. rewrite Tr, Rc, Lg by auto. split; [lia|]. split; [|auto]. split; auto. split; auto.
      exists i', ch'. rewrite lines_app, Q4, lines_end by auto. auto.
    + intros t1 t2 r' H1 H2. assert (t1 <> t) by congruence. assert (t2 <> t) by congruence. rewrite Tr in H1, H2 by auto.
      eapply (ti_inj _ T); eauto.
    + intros r' H. rewrite N' in H. destruct (Nat.eq_dec r' r) as [->|N].
      * right. exists i, (t_begin (tr s t)), ch, t, (if (time =? 0)%Z then now s else time), fr.
        split; auto. rewrite Lg, lines_app, R4, lines_end_self. auto.
      * destruct (ti_all _ T r' H) as [[t' Ht]|F].
        -- left. exists t'. rewrite Tr; auto. intros ->. congruence.
        -- right. destruct F as (i' & b' & ch' & t' & e' & fr' & F1 & F2). exists i', b', ch', t', e', fr'.
           rewrite Rc by auto. split; auto. rewrite Lg, lines_app, F2, lines_end by auto. now rewrite app_nil_r.
  - assert (X : end_tr attrs s t time fr =
      (let x := tr s t in let e := if (time =? 0)%Z then now s else time in
       set_tr (set_tr s t (Trans (t_stream x) (t_rec x) (t_begin x) e (t_accept x) (t_nbegin x) (t_nend x) (t_naccept x))) t
         (Trans (t_stream x) None (t_begin x) e (t_accept x) (t_nbegin x) (S (t_nend x)) (t_naccept x)), true)).
    { unfold end_tr. rewrite E. destruct (t_stream (tr s t)); auto. }
    rewrite X in *. cbn [fst snd] in *. cbn. rewrite !upd_eq. cbn. split; [|repeat match goal with |- _ /\ _ => split end; auto].
    + apply (ti_frame s); auto.
      * apply (ti_db _ T).
      * intros t'. cbn. upd_case t' t; cbn; auto.
      * intros t'. cbn. upd_case t' t; cbn; auto.
    + intros t' N. now rewrite !upd_neq by auto.
    + now rewrite app_nil_r.
Qed.

Lemma lines_open r r' i b ch : r <> r' -> lines r [WOpen r' i b ch] = [].
Proof. intros N. unfold lines. cbn. destruct (Nat.eqb_spec r' r); congruence. Qed.

Lemma ti_begin s t time h : ti s ->
  let b := if (time =? 0)%Z then now s else time in
  exists s', begin_tr attrs s t time h = (s', true, match t_stream (tr s t) with Some _ => Some (nrec s) | None => None end) /\ ti s' /\
    log s' = log s ++ begin_lines attrs s t b h /\
    t_rec (tr s' t) = match t_stream (tr s t) with Some _ => Some (nrec s) | None => None end /\
    t_begin (tr s' t) = b /\ t_end (tr s' t) = (-1)%Z /\
    t_nbegin (tr s' t) = S (t_nbegin (tr s t)) /\
    t_nend (tr s' t) = (match t_rec (tr s t) with Some _ => S (t_nend (tr s t)) | None => t_nend (tr s t) end) /\
    (forall t', t' <> t -> tr s' t' = tr s t').
Proof.
  intros T b. pose proof (atoms_wf _ _ _ (begin_tr_at attrs false s t time h) (ti_wf _ T)) as W'.
  unfold begin_lines. unfold begin_tr in *. fold b in W' |- *.
  set (ch := match from_handle s h with Some _ => true | None => false end) in *.
  assert (X : exists s1, match t_rec (tr s t) with None => (s, true) | Some _ => end_tr attrs s t b true end = (s1, true) /\ ti s1 /\
     t_rec (tr s1 t) = None /\ t_stream (tr s1 t) = t_stream (tr s t) /\ now s1 = now s /\
     t_nend (tr s1 t) = (match t_rec (tr s t) with Some _ => S (t_nend (tr s t)) | None => t_nend (tr s t) end) /\
     t_nbegin (tr s1 t) = t_nbegin (tr s t) /\ (forall t', t' <> t -> tr s1 t' = tr s t') /\ nrec s1 = nrec s /\
     log s1 = log s ++ match t_rec (tr s t) with Some r => end_lines attrs t r b true | None => [] end).
  { destruct (t_rec (tr s t)) as [r|] eqn:E.
    - pose proof (ti_end s t b true T) as (A1 & A2 & A3 & A4 & A5 & A6 & A7 & A8 & A9 & A10 & A11).
      destruct (end_tr attrs s t b true) as [s1 ok]. cbn [fst snd] in *. subst ok. exists s1. rewrite E in A10.
      assert (Hb : (if (b =? 0)%Z then now s else b) = b).
      { unfold b. destruct (Z.eqb_spec time 0) as [->|N]; [now destruct (now s =? 0)%Z|destruct (Z.eqb_spec time 0); congruence]. }
      rewrite Hb in *. repeat match goal with |- _ /\ _ => split end; auto.
    - exists s. rewrite app_nil_r. repeat match goal with |- _ /\ _ => split end; auto. }
  destruct X as (s1 & Ex & T1 & B1 & B2 & B3 & B4 & B5 & B6 & B7 & B8).
  rewrite Ex in *. cbn beta iota zeta in *. rewrite B2 in *. destruct (t_stream (tr s t)) as [i|] eqn:S1.
  - set (s2 := set_tr s1 t _) in *.
    destruct (open_recorder_eff s2 i b ch (ti_db _ T1)) as (s3 & E3 & D3 & N3 & Ns3 & Nw3 & Tr3 & Cm3 & Lg3 & Rc3 & Rn3 & Rg3).
    rewrite E3 in *. change (nrec s2) with (nrec s1) in *. rewrite B7 in *.
    rewrite get_handle_eq in * by (rewrite Rn3; discriminate). cbn [fst] in W'.
    assert (Hb : (if (b =? 0)%Z then now s2 else b) = b).
    { change (now s2) with (now s1). rewrite B3. unfold b. destruct (Z.eqb_spec time 0) as [->|N]; [now destruct (now s =? 0)%Z|destruct (Z.eqb_spec time 0); congruence]. }
    rewrite Hb in *.
    eexists. split; [reflexivity|]. split; [|cbn; rewrite ?upd_eq; cbn; repeat match goal with |- _ /\ _ => split end; auto].
    + split; auto.
      * cbn. rewrite D3. discriminate.
      * intros t' r' H. cbn in H. cbn. unfold held. cbn. upd_case t' t.
        -- cbn in H. injection H as <-. split; [lia|]. split; [|discriminate]. cbn. split; auto. rewrite Rn3. split; auto.
           exists i, ch. rewrite Lg3. unfold s2. cbn. rewrite lines_app.
           destruct (w_new _ (ti_wf _ T1) (nrec s)) as (_ & Q & _); [lia|]. rewrite Q. unfold lines. cbn. now rewrite Nat.eqb_refl.
        -- rewrite Tr3 in *. unfold s2 in H |- *. cbn in H |- *. rewrite !upd_neq in * by auto.
           destruct (ti_rec _ T1 t' r' H) as (Q1 & (Q2 & Q3 & i' & ch' & Q4) & Q5).
           assert (r' <> nrec s) by lia. split; [lia|]. split; [|auto]. split; auto. rewrite (proj1 (Rc3 r' H0)). split; auto.
           exists i', ch'. rewrite Lg3. unfold s2. cbn. rewrite lines_app, Q4, lines_open by auto. auto.
      * intros t1 t2 r' H1 H2. cbn in H1, H2. rewrite Tr3 in *. unfold s2 in H1, H2. cbn in H1, H2.
        assert (Z : forall t' r', t' <> t -> t_rec (upd (upd (tr s1) t (Trans (Some i) (t_rec (tr s1 t)) b (-1) (t_accept (tr s1 t)) (t_nbegin (tr s1 t)) (t_nend (tr s1 t)) (t_naccept (tr s1 t)))) t
          (Trans (Some i) (Some (nrec s)) b (-1) (t_accept (tr s1 t)) (S (t_nbegin (tr s1 t))) (t_nend (tr s1 t)) (t_naccept (tr s1 t))) t') = Some r' -> t_rec (tr s1 t') = Some r' /\ r' < nrec s).
        { intros t' r'' N H. rewrite !upd_neq in H by auto. split; auto. apply (ti_rec _ T1) in H. lia. }
        destruct (Nat.eq_dec t1 t) as [->|M1], (Nat.eq_dec t2 t) as [->|M2]; auto.
        -- rewrite upd_eq in H1. cbn in H1. injection H1 as <-. apply Z in H2; auto. lia.
        -- rewrite upd_eq in H2. cbn in H2. injection H2 as <-. apply Z in H1; auto. lia.
        -- apply Z in H1; auto. apply Z in H2; auto. eapply (ti_inj _ T1); [apply H1|apply H2].
      * intros r' H. cbn in H. rewrite N3 in H. destruct (Nat.eq_dec r' (nrec s)) as [->|N].
        -- left. exists t. cbn. now rewrite upd_eq.
        -- destruct (ti_all _ T1 r') as [[t' Ht]|F]; [lia| |].
           ++ left. exists t'. cbn. assert (t' <> t) by congruence. rewrite upd_neq by auto. rewrite Tr3. unfold s2. cbn. now rewrite upd_neq.
           ++ right. destruct F as (i' & b' & ch' & t' & e' & fr' & F1 & F2). exists i', b', ch', t', e', fr'.
              cbn. rewrite (proj1 (Rc3 r' N)). split; auto. rewrite Lg3. unfold s2. cbn. rewrite lines_app, F2, lines_open by auto. now rewrite app_nil_r.
    + rewrite Lg3. unfold s2. cbn. now rewrite B8, app_assoc.
    + intros t' N. rewrite upd_neq by auto. rewrite Tr3. unfold s2. cbn. rewrite upd_neq by auto. auto.
  - eexists. split; [reflexivity|]. cbn in W'. split; [|cbn; rewrite ?upd_eq; cbn; repeat match goal with |- _ /\ _ => split end; auto].
    + split; auto.
      * apply (ti_db _ T1).
      * intros t' r' H. cbn in H. cbn. unfold held. cbn. upd_case t' t; [discriminate|]. apply (ti_rec _ T1 t' r' H).
      * intros t1 t2 r' H1 H2. cbn in H1, H2. upd_case t1 t; [discriminate|]. upd_case t2 t; [discriminate|]. eapply (ti_inj _ T1); eauto.
      * intros r' H. cbn in H. destruct (ti_all _ T1 r' H) as [[t' Ht]|F]; auto.
        left. exists t'. cbn. rewrite upd_neq; auto. congruence.
    + now rewrite B8, app_nil_r.
    + intros t' N. rewrite upd_neq by auto. auto.
Qed.

Lemma ti_step s c : ti s -> tr_call c -> ti (fst (step attrs s c)) /\ snd (step attrs s c) <> RRaise.
Proof.
  intros T C. pose proof (step_wf attrs s c (ti_wf _ T)) as W'. destruct c; cbn in C; try contradiction; cbn [step] in *.
  - split; [|discriminate]. apply (ti_frame s); cbn; auto. apply (ti_db _ T).
  - destruct (open_db s) as [s' b] eqn:E. apply open_db_spec in E. destruct E as (E1 & E2 & E3 & E4 & E5 & E6 & E7 & E8 & E9 & E10).
    cbn [fst snd] in *. split; [|discriminate]. apply (ti_frame s); auto; rewrite ?E4, ?E6; auto.
    destruct b; [rewrite E9; auto; discriminate|]. destruct (E10 eq_refl) as (_ & ->). apply (ti_db _ T).
  - unfold open_stream in *. destruct (open_db s) as [s' b] eqn:E. pose proof (open_db_spec _ _ _ E) as (E1 & E2 & E3 & E4 & E5 & E6 & E7 & E8 & E9 & E10).
    destruct b; cbn [fst snd] in *; (split; [|discriminate]).
    + apply (ti_frame s); auto; cbn; rewrite ?E4, ?E6; auto. rewrite E9; auto; discriminate.
      intros r. rewrite lines_app. apply app_nil_r.
    + destruct (E10 eq_refl) as (_ & ->). auto.
  - split; [auto|discriminate].
  - destruct i as [i|]; [|contradiction]. split; [|discriminate]. unfold set_stream in *. cbn [fst] in *. apply (ti_frame s); cbn; auto.
    + apply (ti_db _ T).
    + intros t'. upd_case t' t; cbn; auto.
    + intros t'. upd_case t' t; cbn; auto. discriminate.
  - destruct (ti_begin s t time parent T) as (s' & -> & T' & _). cbn. split; auto. discriminate.
  - pose proof (ti_end s t time fr T) as (A & B & _). destruct (end_tr attrs s t time fr) as [s' ok]. cbn in *. subst ok. split; auto. discriminate.
  - split; [|discriminate]. unfold accept_tr in *. cbn [fst] in *. apply (ti_frame s); cbn; auto.
    + apply (ti_db _ T).
    + intros t'. upd_case t' t; cbn; auto.
    + intros t'. upd_case t' t; cbn; auto.
Qed.
Lemma ti_run cs s : ti s -> Forall tr_call cs -> ti (run attrs s cs).
Proof. revert s. induction cs; cbn; intros s T F; auto. inversion F; subst. apply IHcs; auto. now apply ti_step. Qed.
End Trans.

(** ** Components *)
Section Comp.
Context (attrs : nat -> list nat).
Lemma open_stream_cmp s : cmp (fst (open_stream s)) = cmp s /\ tr (fst (open_stream s)) = tr s.
Proof.
  unfold open_stream. destruct (open_db s) as [s1 b] eqn:E. apply open_db_spec in E. destruct E as (_ & _ & _ & _ & _ & E & F & _).
  destruct b; auto.
Qed.
Lemma get_handle_cmp s r : cmp (fst (get_handle s r)) = cmp s /\ tr (fst (get_handle s r)) = tr s.
Proof. unfold get_handle. destruct (r_life (rec s r)); auto. Qed.
Lemma open_recorder_cmp s i t ch : cmp (fst (open_recorder s i t ch)) = cmp s /\ tr (fst (open_recorder s i t ch)) = tr s.
Proof.
  unfold open_recorder. destruct (open_db s) as [s1 b] eqn:E. apply open_db_spec in E. destruct E as (_ & _ & _ & _ & _ & E & F & _).
  destruct b; auto. cbn [fst]. split; [rewrite (proj1 (put_cmp _ _ _))|rewrite (proj1 (proj2 (put_cmp _ _ _)))]; cbn; auto.
Qed.
Lemma begin_tr_cmp s t time h : cmp (fst (fst (begin_tr attrs s t time h))) = cmp s.
Proof.
  unfold begin_tr. set (tmp := if (time =? 0)%Z then now s else time).
  assert (E : cmp (fst (match t_rec (tr s t) with None => (s, true) | Some _ => end_tr attrs s t tmp true end)) = cmp s).
  { destruct (t_rec (tr s t)); auto. apply end_tr_cmp. }
  destruct (match t_rec (tr s t) with None => (s, true) | Some _ => end_tr attrs s t tmp true end) as [s1 ok]. cbn [fst] in E.
  destruct ok; auto. destruct (t_stream (tr s1 t)) as [i|]; [|exact E].
  set (s2 := set_tr s1 t _). set (ch := match from_handle s h with Some _ => true | None => false end).
  pose proof (open_recorder_cmp s2 i tmp ch) as (F & _). destruct (open_recorder s2 i tmp ch) as [s3 [r|]]; cbn [fst] in *.
  - pose proof (get_handle_cmp s3 r) as (G & _). destruct (get_handle s3 r). cbn in *. congruence.
  - cbn. rewrite F. exact E.
Qed.

(** the part of a component that other calls keep *)
Definition keeps (c t : nat) (s s' : st) : Prop :=
  (c_main (cmp s c) <> None -> c_main (cmp s' c) = c_main (cmp s c)) /\ c_trh (cmp s' c) t = c_trh (cmp s c) t.
Lemma keeps_cmp c t s s' : cmp s' = cmp s -> keeps c t s s'.
Proof. intros E. unfold keeps. rewrite E. auto. Qed.
Lemma keeps_trans c t s s1 s2 : keeps c t s s1 -> keeps c t s1 s2 -> keeps c t s s2.
Proof.
  intros (A & B) (C & D). split; [|congruence]. intros N. pose proof (A N). rewrite C by congruence. auto.
Qed.
Lemma keeps_set c t s k x : (c_main (cmp s k) <> None -> c_main x = c_main (cmp s k)) -> (k = c -> c_trh x t = c_trh (cmp s k) t) ->
  keeps c t s (set_cmp s k x).
Proof. intros A B. unfold keeps. cbn. upd_case c k; auto. Qed.
Lemma get_tr_stream_keeps c t s k n : keeps c t s (fst (get_tr_stream s k n)).
Proof.
  unfold get_tr_stream. destruct (assocn n (c_streams (cmp s k))); [now apply keeps_cmp|].
  pose proof (open_stream_cmp s) as (E & _). destruct (open_stream s) as [s1 x]. cbn [fst] in *.
  eapply keeps_trans; [apply keeps_cmp, E|]. apply keeps_set; auto.
Qed.
Definition main_stream (s : st) (k : nat) (used : bool) : st * option nat :=
  match c_main (cmp s k) with
  | None => let (s, x) := open_stream s in (set_cmp s k (with_main (cmp s k) x), x)
  | Some i => (s, if used then Some i else None)
  end.
Lemma main_stream_keeps c t s k b : keeps c t s (fst (main_stream s k b)).
Proof.
  unfold main_stream. destruct (c_main (cmp s k)) eqn:M; [now apply keeps_cmp|].
  pose proof (open_stream_cmp s) as (E & _). destruct (open_stream s) as [s1 x]. cbn [fst] in *.
  eapply keeps_trans; [apply keeps_cmp, E|]. apply keeps_set; auto. rewrite E. congruence.
Qed.
Lemma c_begin_keeps c t s k t' par q n lab time : (k = c -> t' <> t) -> keeps c t s (fst (fst (c_begin attrs s k t' par q n lab time))).
Proof.
  intros D. unfold c_begin. set (pp := match from_handle s par with Some r => Some r | None => q end).
  assert (A1 : cmp (fst (match pp with Some r => get_handle s r | None => (s, None) end)) = cmp s).
  { destruct pp; auto. apply get_handle_cmp. }
  destruct (match pp with Some r => get_handle s r | None => (s, None) end) as [s1 ph]. cbn [fst] in A1.
  pose proof (begin_tr_cmp s1 t' time ph) as A2. destruct (begin_tr attrs s1 t' time ph) as [[s2 ok] link]. cbn [fst] in A2.
  assert (A3 : keeps c t s s2) by (apply keeps_cmp; congruence).
  destruct ok; [|exact A3].
  match goal with |- context [if c_on (cmp s2 k) then ?a else ?b] => set (B := if c_on (cmp s2 k) then a else b) end.
  assert (A4 : keeps c t s (fst B)).
  { unfold B. destruct (c_on (cmp s2 k)); [|exact A3].
    change (match c_main (cmp s2 k) with None => let (s3, x) := open_stream s2 in (set_cmp s3 k (with_main (cmp s3 k) x), x) | Some _ => (s2, None) end)
      with (main_stream s2 k false).
    set (SS := match n with None => main_stream s2 k false | Some n => get_tr_stream s2 k n end).
    assert (A5 : keeps c t s (fst SS)).
    { unfold SS. destruct n as [n|]; (eapply keeps_trans; [exact A3|]); [apply get_tr_stream_keeps|apply main_stream_keeps]. }
    destruct SS as [s3 [i|]]; [|exact A5]. cbn [fst] in A5.
    pose proof (open_recorder_cmp s3 i time (match pp with Some _ => true | None => false end)) as (A6 & _).
    destruct (open_recorder s3 i time _) as [s4 [r|]] eqn:O; cbn [fst] in *; [|eapply keeps_trans; [exact A5|apply keeps_cmp, A6]].
    assert (X : forall s x, match pp with Some p0 => establish_link s (ORec p0) x | None => s end = s).
    { intros. destruct pp; [apply establish_link_id|reflexivity]. }
    rewrite X by auto.
    assert (Y : forall s x, match from_handle s link with Some l => establish_link s x (ORec l) | None => s end = s).
    { intros s5 x. destruct (from_handle s5 link); [apply establish_link_id|reflexivity]. }
    rewrite Y.
    eapply keeps_trans; [exact A5|]. eapply keeps_trans; [apply keeps_cmp, A6|].
    eapply keeps_trans; [apply keeps_cmp, (proj1 (record_cmp lab s4 r))|].
    eapply keeps_trans; [|apply keeps_cmp, get_handle_cmp]. apply keeps_set; auto. intros ->. cbn. rewrite upd_neq; auto. intros ->. now apply D. }
  destruct B as [s3 h]. cbn [fst] in *. eapply keeps_trans; [exact A4|]. apply keeps_set; auto.
Qed.
Lemma c_end_keeps c t s k t' time fr : (k = c -> t' <> t) -> keeps c t s (fst (c_end attrs s k t' time fr)).
Proof.
  intros D. unfold c_end. pose proof (end_tr_cmp attrs s t' time fr) as A1. destruct (end_tr attrs s t' time fr) as [s1 ok]. cbn [fst] in *.
  assert (A2 : keeps c t s s1) by (apply keeps_cmp; auto).
  assert (FIN : forall s2 x b, keeps c t s s2 -> x = cmp s2 k -> keeps c t s (set_cmp s2 k (Comp b (c_main x) (c_streams x) (c_trh x) (c_nbegin x) (S (c_nend x))))).
  { intros s2 x b K ->. eapply keeps_trans; [exact K|]. apply keeps_set; auto. }
  destruct ok; [|exact A2]. destruct (c_on (cmp s1 k)); [|exact (FIN s1 _ _ A2 eq_refl)].
  destruct (c_trh (cmp s1 k) t') as [r|]; [|exact (FIN s1 _ _ A2 eq_refl)].
  set (s2 := fst (get_handle s1 r)). assert (K2 : keeps c t s s2) by (eapply keeps_trans; [exact A2|apply keeps_cmp, get_handle_cmp]).
  set (s3 := set_cmp s2 k _). assert (K3 : keeps c t s s3).
  { eapply keeps_trans; [exact K2|]. apply keeps_set; auto. intros ->. cbn. rewrite upd_neq; auto. intros ->. now apply D. }
  set (s4 := record s3 r (attrs t')). assert (K4 : keeps c t s s4) by (eapply keeps_trans; [exact K3|apply keeps_cmp, record_cmp]).
  destruct (close s4 r time) as [s5|] eqn:C; [|exact K4]. apply close_cmp in C.
  assert (K5 : keeps c t s s5) by (eapply keeps_trans; [exact K4|apply keeps_cmp, C]).
  destruct fr; [|exact (FIN s5 _ _ K5 eq_refl)]. destruct (free s5 r 0) as [s6|] eqn:F; [|exact K5]. apply free_cmp in F.
  refine (FIN s6 _ _ _ eq_refl). eapply keeps_trans; [exact K5|apply keeps_cmp, F].
Qed.
Lemma c_event_keeps c t s k n lab time keep : keeps c t s (fst (fst (c_event s k n lab time keep))).
Proof.
  unfold c_event. set (tm := if (time =? 0)%Z then now s else time).
  change (match c_main (cmp s k) with None => let (s3, x) := open_stream s in (set_cmp s3 k (with_main (cmp s3 k) x), x) | Some i => (s, Some i) end)
      with (main_stream s k true).
  set (SS := match n with None => main_stream s k true | Some n => get_tr_stream s k n end).
  assert (A5 : keeps c t s (fst SS)).
  { unfold SS. destruct n as [n|]; [apply get_tr_stream_keeps|apply main_stream_keeps]. }
  destruct SS as [s3 [i|]]; [|exact A5]. cbn [fst] in A5.
  pose proof (open_recorder_cmp s3 i tm false) as (A6 & _).
  destruct (open_recorder s3 i tm _) as [s4 [r|]] eqn:O; cbn [fst] in *; [|eapply keeps_trans; [exact A5|apply keeps_cmp, A6]].
  assert (K4 : keeps c t s s4) by (eapply keeps_trans; [exact A5|apply keeps_cmp, A6]).
  destruct (close (record s4 r lab) r tm) as [s5|] eqn:C; [|exact K4]. apply close_cmp in C. destruct C as (C & _).
  assert (K5 : keeps c t s s5). { eapply keeps_trans; [exact K4|]. apply keeps_cmp. rewrite C. apply record_cmp. }
  destruct keep.
  - pose proof (get_handle_cmp s5 r) as (G & _). destruct (get_handle s5 r). cbn in *. eapply keeps_trans; [exact K5|now apply keeps_cmp].
  - destruct (free s5 r 0) as [s6|] eqn:F; [|exact K5]. apply free_cmp in F. cbn. eapply keeps_trans; [exact K5|now apply keeps_cmp].
Qed.
Lemma step_keeps c t s x : apart c t x -> keeps c t s (fst (step attrs s x)).
Proof.
  intros A. destruct x; cbn [step apart] in *; try (apply keeps_cmp; reflexivity).
  - apply keeps_cmp. destruct (open_db s) as [s1 b] eqn:E. apply open_db_spec in E. apply E.
  - apply keeps_cmp. cbn. unfold close_db. destruct (db s); auto.
  - apply keeps_cmp. pose proof (open_stream_cmp s). destruct (open_stream s). apply H.
  - apply keeps_cmp. destruct (i <? nstr s); auto. pose proof (open_recorder_cmp s i t0 false) as H. destruct (open_recorder s i t0 false). apply H.
  - apply keeps_cmp, record_cmp.
  - apply keeps_cmp. destruct (close s r t0) eqn:C; auto. apply close_cmp in C. apply C.
  - apply keeps_cmp. destruct (free s r t0) eqn:C; auto. apply free_cmp in C. apply C.
  - apply keeps_cmp. pose proof (get_handle_cmp s r) as H. destruct (get_handle s r). apply H.
  - apply keeps_cmp. cbn. now rewrite establish_link_id.
  - apply keeps_cmp. pose proof (begin_tr_cmp s t0 time parent) as H. destruct (begin_tr attrs s t0 time parent) as [[? ?] ?]. apply H.
  - apply keeps_cmp. pose proof (end_tr_cmp attrs s t0 time fr) as H. destruct (end_tr attrs s t0 time fr) as [? ?]. apply H.
  - cbn. apply keeps_set; auto.
  - pose proof (get_tr_stream_keeps c t s c0 n) as H. destruct (get_tr_stream s c0 n). apply H.
  - pose proof (c_begin_keeps c t s c0 t0 parent pseq name lab time A) as H. destruct (c_begin attrs s c0 t0 parent pseq name lab time) as [[? ?] ?]. apply H.
  - pose proof (c_end_keeps c t s c0 t0 time fr A) as H. destruct (c_end attrs s c0 t0 time fr). apply H.
  - pose proof (c_event_keeps c t s c0 name lab time keep) as H. destruct (c_event s c0 name lab time keep) as [[? ?] ?]. apply H.
Qed.
Lemma run_keeps c t xs s : Forall (apart c t) xs -> keeps c t s (run attrs s xs).
Proof.
  revert s. induction xs as [|x xs IH]; intros s F; cbn; [now apply keeps_cmp|]. inversion F; subst.
  eapply keeps_trans; [apply (step_keeps c t s x); assumption|auto].
Qed.
(** the main stream stays, whatever is called: use a transaction that no call mentions *)
Lemma run_main c xs s : c_main (cmp s c) <> None -> c_main (cmp (run attrs s xs) c) = c_main (cmp s c).
Proof.
  intros N.
  assert (F : exists t, Forall (apart c t) xs).
  { assert (G : exists m, forall t, m <= t -> Forall (apart c t) xs).
    { clear N. induction xs as [|x xs (m & IH)]; [exists 0; auto|].
      exists (match x with CBegin _ t' _ _ _ _ _ | CEnd _ t' _ _ => Nat.max m (S t') | _ => m end).
      intros t L. constructor; [|apply IH; destruct x; lia]. destruct x; cbn; auto; lia. }
    destruct G as (m & G). exists m. apply G. auto. }
  destruct F as (t & F). apply (proj1 (run_keeps c t xs s F)). auto.
Qed.

Lemma c_begin_main s c t par q lab time : c_main (cmp s c) <> None ->
  let o := c_begin attrs s c t par q None lab time in
  snd o = None /\ c_trh (cmp (fst (fst o)) c) = c_trh (cmp s c) /\
  exists s1 h, (s1 = s \/ exists r, s1 = set_reg s r true) /\
    log (fst (fst o)) = log (fst (fst (begin_tr attrs s1 t time h))) /\ nrec (fst (fst o)) = nrec (fst (fst (begin_tr attrs s1 t time h))).
Proof.
  intros N. cbn zeta. unfold c_begin. set (pp := match from_handle s par with Some r => Some r | None => q end).
  assert (A1 : exists s1 ph, match pp with Some r => get_handle s r | None => (s, None) end = (s1, ph) /\ cmp s1 = cmp s /\
     (s1 = s \/ exists r, s1 = set_reg s r true)).
  { destruct pp as [r|]; [|exists s, None; auto]. unfold get_handle. destruct (r_life (rec s r)); eexists; eexists; (split; [reflexivity|]); split; eauto. }
  destruct A1 as (s1 & ph & -> & C1 & D1).
  pose proof (begin_tr_cmp s1 t time ph) as A2. 
  destruct (begin_tr attrs s1 t time ph) as [[s2 ok] link] eqn:B. cbn [fst] in A2.
  destruct ok.
  - assert (M : c_main (cmp s2 c) <> None) by (rewrite A2, C1; auto). destruct (c_main (cmp s2 c)) as [i|] eqn:E; [|congruence].
    assert (X : (if c_on (cmp s2 c) then (s2, None) else (s2, None)) = (s2, None : option nat)) by now destruct (c_on (cmp s2 c)).
    rewrite X. cbn. rewrite upd_eq. cbn. split; auto. split; [now rewrite A2, C1|]. exists s1, ph. rewrite B. auto.
  - cbn. split; auto. split; [now rewrite A2, C1|]. exists s1, ph. rewrite B. auto.
Qed.

Lemma open_stream_eff s : db s <> Closed ->
  exists s', open_stream s = (s', Some (nstr s)) /\ db s' = Opened /\ nrec s' = nrec s /\ now s' = now s /\ tr s' = tr s /\ cmp s' = cmp s /\
    rec s' = rec s /\ reg s' = reg s /\ log s' = log s ++ [WStream (nstr s)].
Proof.
  intros D. unfold open_stream. destruct (open_db s) as [s1 b] eqn:E.
  assert (b = true) as ->. { unfold open_db in E. destruct (db s); congruence. }
  apply open_db_spec in E. destruct E as (E1 & E2 & E3 & E4 & E5 & E6 & E7 & E8 & E9 & _). specialize (E9 eq_refl).
  eexists. rewrite E8. split; [reflexivity|]. cbn. rewrite E1, E2, E3, E4, E5, E6, E7, E9. auto 10.
Qed.
Lemma c_begin_eff s c t par q n lab time i pre :
  wf s -> db s <> Closed -> c_on (cmp s c) = true -> t_stream (tr s t) = None -> t_rec (tr s t) = None -> resolved s c n i pre ->
  exists s' ch, c_begin attrs s c t par q n lab time = (s', true, Some (nrec s)) /\
    ch = (match from_handle s par, q with None, None => false | _, _ => true end) /\
    log s' = log s ++ pre ++ WOpen (nrec s) i (time_of s time) ch :: map (WAttr (nrec s)) lab /\
    c_trh (cmp s' c) t = Some (nrec s) /\ r_life (rec s' (nrec s)) = LOpen /\ nrec s' = S (nrec s) /\ reg s' (nrec s) = true /\
    db s' = Opened /\ now s' = now s /\ c_on (cmp s' c) = true /\ t_stream (tr s' t) = None /\ t_rec (tr s' t) = None /\
    (n = None -> c_main (cmp s' c) = Some i).
Proof.
  intros W D On TS TR RS. unfold c_begin. set (pp := match from_handle s par with Some r => Some r | None => q end).
  assert (A1 : exists s1 ph, match pp with Some r => get_handle s r | None => (s, None) end = (s1, ph) /\
     (s1 = s \/ exists r, s1 = set_reg s r true)).
  { destruct pp as [r|]; [|exists s, None; auto]. unfold get_handle. destruct (r_life (rec s r)); eexists; eexists; (split; [reflexivity|]); eauto. }
  destruct A1 as (s1 & ph & -> & D1).
  assert (F1 : db s1 = db s /\ nrec s1 = nrec s /\ nstr s1 = nstr s /\ now s1 = now s /\ tr s1 = tr s /\ cmp s1 = cmp s /\ log s1 = log s /\ rec s1 = rec s).
  { destruct D1 as [->|(r & ->)]; cbn; auto 10. }
  destruct F1 as (F1 & F2 & F3 & F4 & F5 & F6 & F7 & F8).
  assert (B : exists s2, begin_tr attrs s1 t time ph = (s2, true, None) /\ same s1 s2 /\ nstr s2 = nstr s1 /\ now s2 = now s1 /\ cmp s2 = cmp s1 /\
     t_stream (tr s2 t) = None /\ t_rec (tr s2 t) = None).
  { unfold begin_tr. rewrite F5, TR. cbn beta iota zeta. rewrite ?F5, TS. eexists. split; [reflexivity|]. split; [apply same_tr|]. cbn. rewrite upd_eq. auto. }
  destruct B as (s2 & -> & (G1 & G2 & G3 & G4 & G5) & G6 & G7 & G8 & G9 & G10).
  rewrite G8, F6, On.
  change (match c_main (cmp s c) with None => let (s3, x) := open_stream s2 in (set_cmp s3 c (with_main (cmp s3 c) x), x) | Some _ => (s2, None) end)
    with (match c_main (cmp s c) with None => let (s3, x) := open_stream s2 in (set_cmp s3 c (with_main (cmp s3 c) x), x) | Some _ => (s2, None : option nat) end).
  assert (Dn : db s2 <> Closed) by congruence.
  assert (St : exists s3, (match n with None => match c_main (cmp s c) with None => let (s3, x) := open_stream s2 in (set_cmp s3 c (with_main (cmp s3 c) x), x) | Some _ => (s2, None) end
       | Some n => get_tr_stream s2 c n end) = (s3, Some i) /\ db s3 <> Closed /\ nrec s3 = nrec s /\ now s3 = now s /\ tr s3 = tr s2 /\ log s3 = log s ++ pre /\
       c_on (cmp s3 c) = true /\ (n = None -> c_main (cmp s3 c) = Some i)).
  { destruct (open_stream_eff s2 Dn) as (s3 & E & H1 & H2 & H3 & H4 & H5 & _ & _ & H6).
    destruct n as [n|]; cbn in RS.
    - unfold get_tr_stream. rewrite G8, F6. destruct RS as [(RS & ->)|(RS & -> & ->)]; rewrite RS.
      + exists s2. rewrite app_nil_r. rewrite G2, F2, G7, F4, G5, F7, G8, F6. repeat match goal with |- _ /\ _ => split end; auto. discriminate.
      + rewrite E. eexists. rewrite G6, F3. split; [reflexivity|]. cbn. rewrite upd_eq. cbn. rewrite H1, H2, H3, H5, H6, G2, F2, G7, F4, G5, F7, G8, F6, G6, F3.
        repeat match goal with |- _ /\ _ => split end; auto; discriminate.
    - destruct RS as (RS & -> & ->). rewrite RS, E. eexists. rewrite G6, F3. split; [reflexivity|]. cbn. rewrite upd_eq. cbn.
      rewrite H1, H2, H3, H5, H6, G2, F2, G7, F4, G5, F7, G8, F6, G6, F3.
      repeat match goal with |- _ /\ _ => split end; auto; discriminate. }
  destruct St as (s3 & Es & H1 & H2 & H3 & H4 & H5 & H6 & H7). rewrite Es.
  set (ch := match pp with Some _ => true | None => false end).
  destruct (open_recorder_eff s3 i time ch H1) as (s4 & E4 & D4 & N4 & Ns4 & Nw4 & Tr4 & Cm4 & Lg4 & Rc4 & Rn4 & Rg4).
  rewrite E4. rewrite H2 in *.
  assert (X : forall s x, match pp with Some p0 => establish_link s (ORec p0) x | None => s end = s).
  { intros. destruct pp; [apply establish_link_id|reflexivity]. }
  rewrite X. cbn [from_handle].
  pose proof (record_touch lab s4 (nrec s) D4) as T. assert (L4 : active (r_life (rec s4 (nrec s)))) by (rewrite Rn4; left; auto).
  specialize (T L4). set (s5 := record s4 (nrec s) lab) in *.
  assert (L5 : rec s5 (nrec s) = rec s4 (nrec s)) by apply record_life.
  rewrite get_handle_eq by (cbn; rewrite L5, Rn4; discriminate).
  destruct T as [a b d e f g h k].
  eexists. exists ch. split; [reflexivity|]. cbn. rewrite !upd_eq. cbn. rewrite a, b, e, f, h, L5, Rn4, D4, N4, Nw4, H3, Tr4, Lg4, H5, H3, g, Cm4, H4. cbn.
  rewrite ?upd_eq. repeat match goal with |- _ /\ _ => split end; auto.
  - unfold ch, pp. destruct (from_handle s par); auto.
  - unfold time_of. rewrite <- !app_assoc. reflexivity.
Qed.
Lemma c_end_eff s c t time fr r :
  db s = Opened -> c_on (cmp s c) = true -> t_stream (tr s t) = None -> c_trh (cmp s c) t = Some r -> active (r_life (rec s r)) ->
  exists s', c_end attrs s c t time fr = (s', true) /\ log s' = log s ++ end_lines attrs t r (time_of s time) fr /\
    c_trh (cmp s' c) t = None /\ r_life (rec s' r) = (if fr then LFreed else LClosed).
Proof.
  intros D On TS Th L. unfold c_end.
  assert (B : exists s1, end_tr attrs s t time fr = (s1, true) /\ same s s1 /\ now s1 = now s /\ cmp s1 = cmp s).
  { unfold end_tr. rewrite TS. eexists. split; [reflexivity|]. cbn. split; [repeat split|]. auto. }
  destruct B as (s1 & -> & (G1 & G2 & G3 & G4 & G5) & G6 & G7). rewrite G7, On, Th.
  rewrite get_handle_eq by (rewrite G3; now apply active_new). cbn [fst].
  set (s2 := set_cmp _ c _).
  pose proof (record_touch (attrs t) s2 r) as T. assert (D2 : db s2 = Opened) by (cbn; congruence).
  assert (L2 : active (r_life (rec s2 r))) by (cbn; now rewrite G3). specialize (T D2 L2). set (s3 := record s2 r (attrs t)) in *.
  destruct (close_touch s3 r time) as (s4 & E4 & T4 & R4).
  { now rewrite (to_db _ _ _ _ T). } { unfold s3. now rewrite record_life. }
  rewrite E4. assert (Hn : (if (time =? 0)%Z then now s3 else time) = time_of s time).
  { rewrite (to_now _ _ _ _ T). unfold s2, time_of. cbn. now rewrite G6. }
  rewrite Hn in *. pose proof (touch_trans _ _ _ _ _ _ T T4) as T5.
  destruct fr.
  - destruct (free_touch s4 r 0%Z) as (s5 & E5 & T6 & R5). { now rewrite (to_db _ _ _ _ T5). } { now rewrite R4. }
    rewrite E5. pose proof (touch_trans _ _ _ _ _ _ T5 T6) as T7. eexists. split; [reflexivity|].
    destruct T7 as [a b d e f g h k]. cbn. rewrite upd_eq. cbn. rewrite h, g, R5. unfold s2. cbn. rewrite upd_eq. cbn. rewrite upd_eq, G5.
    unfold end_lines. rewrite <- app_assoc. auto.
  - eexists. split; [reflexivity|].
    destruct T5 as [a b d e f g h k]. cbn. rewrite upd_eq. cbn. rewrite h, g, R4. unfold s2. cbn. rewrite upd_eq. cbn. rewrite upd_eq, G5. auto.
Qed.
Lemma c_end_freed s c t time fr r :
  c_on (cmp s c) = true -> t_stream (tr s t) = None -> c_trh (cmp s c) t = Some r -> r_life (rec s r) = LFreed ->
  snd (c_end attrs s c t time fr) = false.
Proof.
  intros On TS Th L. unfold c_end.
  assert (B : exists s1, end_tr attrs s t time fr = (s1, true) /\ same s s1 /\ now s1 = now s /\ cmp s1 = cmp s).
  { unfold end_tr. rewrite TS. eexists. split; [reflexivity|]. cbn. split; [repeat split|]. auto. }
  destruct B as (s1 & -> & (G1 & G2 & G3 & G4 & G5) & G6 & G7). rewrite G7, On, Th.
  rewrite get_handle_eq by (rewrite G3; congruence). cbn [fst].
  unfold close. rewrite record_life. cbn. now rewrite G3, L.
Qed.
End Comp.
