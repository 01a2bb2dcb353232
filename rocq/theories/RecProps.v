(** Recording: C123 - C126. *)
From Coq Require Import ZArith List Bool Arith Lia.
From Verif Require Import Prelude RecModel RecSpec RecProofs.
Import ListNotations.
Local Open Scope nat_scope.

(** ** C123: the life of a recorder *)
(** In every history that has not closed the database, the lines of a recorder are its opening,
    then attributes and closings, then its freeing; whether a closing, the freeing is there is
    told by the recorder's state, and the times are those it reports. *)
Theorem C123_lines attrs cs r :
  let s := run attrs init cs in
  db s <> Closed ->
  match r_life (rec s r) with
  | LNew => lines r (log s) = []
  | LOpen => open_lines r (r_topen (rec s r)) (lines r (log s))
  | LClosed => closed_lines r (r_topen (rec s r)) (r_tclose (rec s r)) (lines r (log s))
  | LFreed => exists l, lines r (log s) = l ++ [WFree r] /\ closed_lines r (r_topen (rec s r)) (r_tclose (rec s r)) l
  end.
Proof. intros s D. exact (w_shape _ (run_wf attrs cs init wf_init) D r). Qed.
Print Assumptions C123_lines.
(** A recorder only moves forward: not opened, open, closed, freed. *)
Theorem C123_forward attrs cs cs' r :
  rank (r_life (rec (run attrs init cs) r)) <= rank (r_life (rec (run attrs (run attrs init cs) cs') r)).
Proof. apply run_rank, run_wf, wf_init. Qed.
Print Assumptions C123_forward.
(** free() of an open or closed recorder returns, and whatever is called afterwards, record_*()
    and free() of it change nothing and close() raises. *)
Theorem C123_freed attrs cs cs' r t :
  let s := run attrs init cs in
  active (r_life (rec s r)) ->
  snd (step attrs s (Free r t)) <> RRaise /\
  let s' := run attrs (fst (step attrs s (Free r t))) cs' in
  r_life (rec s' r) = LFreed /\
  (forall ats, fst (step attrs s' (Record r ats)) = s') /\
  (forall t', step attrs s' (Free r t') = (s', RUnit)) /\
  (forall t', snd (step attrs s' (Close r t')) = RRaise).
Proof.
  intros s A. pose proof (run_wf attrs cs init wf_init) as W. fold s in W.
  destruct (free_some s r t) as (s1 & E). cbn [step]. rewrite E. split; [discriminate|]. cbn [fst]. set (s' := run attrs s1 cs').
  assert (L1 : r_life (rec s1 r) = LFreed).
  { unfold free in E. destruct A as [L|L]; rewrite L in E.
    - destruct (close s r t) as [s2|]; [|discriminate]. injection E as <-. cbn. now rewrite upd_eq.
    - injection E as <-. cbn. now rewrite upd_eq. }
  assert (W1 : wf s1) by (eapply atoms_wf; [eapply (free_at false), E|exact W]).
  assert (L : r_life (rec s' r) = LFreed).
  { pose proof (run_rank attrs cs' s1 r W1) as R. rewrite L1 in R. fold s' in R. destruct (r_life (rec s' r)); cbn in R; auto; lia. }
  split; auto. repeat split.
  - intros ats. cbn. revert L. generalize s'. induction ats as [|a ats IH]; intros s2 L; cbn; auto. rewrite L. now apply IH.
  - intros t'. unfold free. now rewrite L.
  - intros t'. unfold close. now rewrite L.
Qed.
Print Assumptions C123_freed.
(** After close_db() of an open database nothing is written any more and no recorder is opened,
    whatever is called, open_db() included. *)
Theorem C123_closed_db attrs cs cs' c :
  let s := fst (step attrs (run attrs init cs) CloseDb) in
  db (run attrs init cs) = Opened ->
  let s' := run attrs s cs' in
  log s' = log (run attrs init cs) /\ nrec s' = nrec (run attrs init cs) /\
  snd (step attrs s' OpenDb) = RBool false /\ snd (step attrs s' OpenStream) = RRef None /\
  log (fst (step attrs s' c)) = log s'.
Proof.
  intros s D s'. assert (Ds : db s = Closed /\ log s = log (run attrs init cs) /\ nrec s = nrec (run attrs init cs)).
  { unfold s. cbn. unfold close_db. rewrite D. auto. }
  destruct Ds as (D1 & D2 & D3). destruct (run_closed attrs cs' s D1) as (E1 & E2 & E3). fold s' in E1, E2, E3.
  rewrite E2, E3. repeat split; auto.
  - cbn. unfold open_db. now rewrite E1.
  - cbn. unfold open_stream, open_db. now rewrite E1.
  - destruct (run_closed attrs [c] s' E1) as (_ & F & _). cbn in F. congruence.
Qed.
Print Assumptions C123_closed_db.

Definition at1 (t : nat) : list nat := [t].
Definition rec_hist : list call := [OpenStream; Tick 5; OpenRec 0 0; Record 0 [7; 8]; Close 0 0; Tick 9; OpenRec 0 0; Free 1 0; Free 0 0].
Example C123_example :
  let s := run at1 init rec_hist in
  db s = Opened /\ r_life (rec s 0) = LFreed /\
  lines 0 (log s) = [WOpen 0 0 5 false; WAttr 0 7; WAttr 0 8; WClose 0 5; WFree 0] /\
  lines 1 (log s) = [WOpen 1 0 9 false; WClose 1 9; WFree 1].
Proof. vm_compute. repeat split. Qed.
(** close() is not idempotent, and attributes are written after it: a closed recorder that is
    not freed may be closed again, at another time. *)
Theorem C123_close_twice_limit :
  let s := run at1 init [OpenStream; Tick 5; OpenRec 0 0; Close 0 0; Record 0 [3]; Tick 6; Close 0 0] in
  lines 0 (log s) = [WOpen 0 0 5 false; WClose 0 5; WAttr 0 3; WClose 0 6] /\ r_tclose (rec s 0) = 6%Z.
Proof. vm_compute. repeat split. Qed.
Print Assumptions C123_close_twice_limit.

(** ** C124: handles *)
(** As long as no freed recorder is asked for its handle, a handle finds the recorder with that
    handle exactly as long as it is open or closed but not freed. *)
Theorem C124_lookup attrs cs h r :
  all_polite attrs init cs ->
  let s := run attrs init cs in
  snd (step attrs s (FromHandle (Some h))) = RRef (Some r) <-> h = r /\ active (r_life (rec s r)).
Proof.
  intros P s. assert (H : handles s).
  { apply run_handles; auto; [apply wf_init|]. intros x. cbn. unfold active. intuition discriminate. }
  cbn. destruct (reg s h) eqn:E.
  - apply H in E. split; [intros Q; injection Q as <-; auto|]. intros (-> & _). auto.
  - split; [discriminate|]. intros (-> & A). apply H in A. congruence.
Qed.
Print Assumptions C124_lookup.
(** get_handle() names the recorder, from its opening on and also after it has been freed. *)
Theorem C124_handle attrs cs r :
  let s := run attrs init cs in
  snd (step attrs s (GetHandle r)) = RRef (match r_life (rec s r) with LNew => None | _ => Some r end) /\
  (r_life (rec s r) <> LNew -> snd (step attrs (fst (step attrs s (GetHandle r))) (FromHandle (Some r))) = RRef (Some r)).
Proof.
  intros s. cbn. unfold get_handle. destruct (r_life (rec s r)); cbn; rewrite ?upd_eq; split; auto; congruence.
Qed.
Print Assumptions C124_handle.
Example C124_example :
  all_polite at1 init rec_hist /\
  all_polite at1 init (firstn 6 rec_hist) /\
  snd (step at1 (run at1 init (firstn 6 rec_hist)) (FromHandle (Some 0))) = RRef (Some 0) /\
  snd (step at1 (run at1 init rec_hist) (FromHandle (Some 0))) = RRef None.
Proof. vm_compute. repeat split. Qed.
(** Asking a freed recorder for its handle puts it back: the handle then finds the freed recorder. *)
Theorem C124_freed_handle_limit :
  let s := run at1 init (rec_hist ++ [GetHandle 0]) in
  r_life (rec s 0) = LFreed /\ snd (step at1 s (FromHandle (Some 0))) = RRef (Some 0) /\ snd (step at1 s (Close 0 0)) = RRaise.
Proof. vm_compute. repeat split. Qed.
Print Assumptions C124_freed_handle_limit.

(** ** C125: transactions *)
(** In every history of transactions whose recording is not switched off: no call raises; every
    recorder is open and held by exactly one transaction, having only its opening line with the
    transaction's begin time, or held by none, and then it was ended exactly once. *)
Theorem C125_recorders attrs cs c r :
  Forall tr_call cs -> tr_call c ->
  let s := run attrs init cs in
  snd (step attrs s c) <> RRaise /\
  (r < nrec s ->
     (exists t, t_rec (tr s t) = Some r /\ (forall t', t_rec (tr s t') = Some r -> t' = t) /\ r_life (rec s r) = LOpen /\
        exists i ch, lines r (log s) = [WOpen r i (t_begin (tr s t)) ch]) \/
     ((forall t, t_rec (tr s t) <> Some r) /\
      exists i b ch t e (fr : bool), r_life (rec s r) = (if fr then LFreed else LClosed) /\
        lines r (log s) = WOpen r i b ch :: end_lines attrs t r e fr)).
Proof.
  intros F C s. pose proof (ti_run attrs cs init (ti_init attrs) F) as T. fold s in T.
  split; [now apply ti_step|]. intros L. destruct (ti_all _ _ T r L) as [[t H]|Fin].
  - left. exists t. destruct (ti_rec _ _ T t r H) as (_ & (_ & A & B) & _). repeat split; auto.
    intros t' H'. eapply (ti_inj _ _ T); eauto.
  - right. split; auto. intros t H. destruct (ti_rec _ _ T t r H) as (_ & (_ & A & _) & _).
    destruct Fin as (i & b & ch & t' & e & fr & Q & _). rewrite A in Q. destruct fr; discriminate.
Qed.
Print Assumptions C125_recorders.
(** end_tr(): the transaction's recorder is ended with its end time; without one nothing is written. *)
Theorem C125_end attrs cs t time fr :
  Forall tr_call cs ->
  let s := run attrs init cs in
  exists s', step attrs s (End t time fr) = (s', RUnit) /\
    log s' = log s ++ match t_rec (tr s t) with Some r => end_lines attrs t r (time_of s time) fr | None => [] end /\
    t_rec (tr s' t) = None /\ t_end (tr s' t) = time_of s time /\ t_nend (tr s' t) = S (t_nend (tr s t)) /\
    t_nbegin (tr s' t) = t_nbegin (tr s t) /\ (forall t', t' <> t -> tr s' t' = tr s t').
Proof.
  intros F s. pose proof (ti_run attrs cs init (ti_init attrs) F) as T. fold s in T.
  pose proof (ti_end attrs s t time fr T) as (A1 & A2 & A3 & A4 & A5 & A6 & A7 & A8 & A9 & A10 & A11).
  cbn [step]. destruct (end_tr attrs s t time fr) as [s' ok]. cbn [fst snd] in *. subst ok. exists s'. repeat split; auto.
Qed.
Print Assumptions C125_end.
(** A transaction that nothing was done with has not begun, ended or been accepted, and records
    nothing. *)
Definition concerns (t : nat) (c : call) : Prop :=
  match c with
  | SetStream t' _ | Begin t' _ _ | End t' _ _ | Accept t' _ | CBegin _ t' _ _ _ _ _ | CEnd _ t' _ _ => t' = t
  | _ => False
  end.
Lemma tr_open_db s : tr (fst (open_db s)) = tr s.
Proof. unfold open_db. now destruct (db s). Qed.
Lemma tr_open_stream s : tr (fst (open_stream s)) = tr s.
Proof. unfold open_stream. pose proof (tr_open_db s) as H. destruct (open_db s) as [s1 [|]]; exact H. Qed.
Lemma tr_get_handle s r : tr (fst (get_handle s r)) = tr s.
Proof. unfold get_handle. now destruct (r_life (rec s r)). Qed.
Lemma tr_put s r x : tr (put s r x) = tr s.
Proof.
  unfold put. pose proof (tr_open_db s) as H. destruct (open_db s) as [s1 [|]]; [|exact H]. cbn in *. now rewrite tr_get_handle.
Qed.
Lemma tr_close s r t s' : close s r t = Some s' -> tr s' = tr s.
Proof.
  unfold close. destruct (r_life (rec s r)); intros [= <-]; try reflexivity; cbn; now rewrite tr_put.
Qed.
Lemma tr_free s r t s' : free s r t = Some s' -> tr s' = tr s.
Proof.
  unfold free. destruct (r_life (rec s r)) eqn:E; try (intros [= <-]; reflexivity).
  - destruct (close s r t) as [s1|] eqn:Ec; [|discriminate]. intros [= <-]. cbn. rewrite tr_put. eapply tr_close; eauto.
  - intros [= <-]. cbn. now rewrite tr_put.
Qed.
Lemma tr_record ats : forall s r, tr (record s r ats) = tr s.
Proof.
  induction ats as [|a ats IH]; intros s r; [reflexivity|]. cbn. destruct (r_life (rec s r)); rewrite IH; auto; apply tr_put.
Qed.
Lemma tr_open_recorder s i t ch : tr (fst (open_recorder s i t ch)) = tr s.
Proof.
  unfold open_recorder. pose proof (tr_open_db s) as H. destruct (open_db s) as [s1 [|]]; [|exact H]. cbn in *. now rewrite tr_put.
Qed.
Lemma tr_link s a b : tr (establish_link s a b) = tr s.
Proof.
  unfold establish_link. destruct (_ || _); [reflexivity|]. destruct (_ || _); [reflexivity|].
  destruct a, b; auto. now rewrite !tr_put.
Qed.
Lemma tr_end attrs s t t' time fr : t' <> t -> tr (fst (end_tr attrs s t' time fr)) t = tr s t.
Proof.
  intros N. unfold end_tr. cbn zeta. assert (U : forall s0 x, tr s0 t = tr s t -> tr (set_tr s0 t' x) t = tr s t).
  { intros s0 x H. cbn. now rewrite upd_neq by auto. }
  set (s1 := set_tr s t' _). assert (H1 : tr s1 t = tr s t) by (apply U; reflexivity).
  destruct (t_stream (tr s t')) as [i|]; [|now apply U]. destruct (t_rec (tr s t')) as [r|]; [|now apply U].
  set (s2 := record s1 r (attrs t')). assert (H2 : tr s2 t = tr s t) by (unfold s2; now rewrite tr_record).
  destruct (close s2 r _) as [s3|] eqn:Ec; [|exact H2]. apply tr_close in Ec.
  assert (H3 : tr s3 t = tr s t) by now rewrite Ec.
  destruct fr; [|now apply U]. destruct (free s3 r 0) as [s4|] eqn:Ef; [|exact H3]. apply tr_free in Ef.
  apply U. now rewrite Ef.
Qed.
Lemma tr_begin attrs s t t' time p : t' <> t -> tr (fst (fst (begin_tr attrs s t' time p))) t = tr s t.
Proof.
  intros N. unfold begin_tr. cbn zeta. assert (U : forall s0 x, tr s0 t = tr s t -> tr (set_tr s0 t' x) t = tr s t).
  { intros s0 x H. cbn. now rewrite upd_neq by auto. }
  set (q := match t_rec (tr s t') with None => _ | Some _ => _ end).
  assert (Q : tr (fst q) t = tr s t) by (subst q; destruct (t_rec (tr s t')); [now apply tr_end|reflexivity]).
  destruct q as [s1 [|]]; cbn [fst] in Q; [|exact Q].
  destruct (t_stream (tr s1 t')) as [i|]; [|now apply U].
  set (s2 := set_tr s1 t' _). assert (H2 : tr s2 t = tr s t) by now apply U.
  match goal with |- context [open_recorder s2 i ?a ?b] => pose proof (tr_open_recorder s2 i a b) as H3; destruct (open_recorder s2 i a b) as [s3 r] end.
  cbn [fst] in H3. destruct r as [r|].
  - pose proof (tr_get_handle s3 r) as H4. destruct (get_handle s3 r) as [s4 h]. cbn [fst] in *. apply U. now rewrite H4, H3.
  - cbn [fst]. apply U. now rewrite H3.
Qed.
Lemma tr_get_stream s c n : tr (fst (get_tr_stream s c n)) = tr s.
Proof.
  unfold get_tr_stream. destruct (assocn n _); [reflexivity|]. pose proof (tr_open_stream s) as H.
  destruct (open_stream s) as [s1 x]. exact H.
Qed.
Lemma tr_main s c : tr (fst (let (s, x) := open_stream s in (set_cmp s c (with_main (cmp s c) x), x))) = tr s.
Proof. pose proof (tr_open_stream s) as H. destruct (open_stream s). exact H. Qed.
Lemma tr_step attrs s c t : ~ concerns t c -> tr (fst (step attrs s c)) t = tr s t.
Proof.
  destruct c; cbn [concerns step]; intros N.
  - reflexivity.
  - pose proof (tr_open_db s) as H. destruct (open_db s). cbn in *. now rewrite H.
  - unfold close_db. now destruct (db s).
  - pose proof (tr_open_stream s) as H. destruct (open_stream s). cbn in *. now rewrite H.
  - destruct (i <? nstr s); [|reflexivity]. pose proof (tr_open_recorder s i t0 false) as H.
    destruct (open_recorder s i t0 false). cbn in *. now rewrite H.
  - cbn. now rewrite tr_record.
  - destruct (close s r t0) as [s1|] eqn:E; [|reflexivity]. cbn. now rewrite (tr_close _ _ _ _ E).
  - destruct (free s r t0) as [s1|] eqn:E; [|reflexivity]. cbn. now rewrite (tr_free _ _ _ _ E).
  - pose proof (tr_get_handle s r) as H. destruct (get_handle s r). cbn in *. now rewrite H.
  - reflexivity.
  - cbn. now rewrite tr_link.
  - cbn. now rewrite upd_neq by auto.
  - pose proof (tr_begin attrs s t t0 time parent N) as H. destruct (begin_tr attrs s t0 time parent) as [[s1 ok] h]. exact H.
  - pose proof (tr_end attrs s t t0 time fr N) as H. destruct (end_tr attrs s t0 time fr) as [s1 ok]. exact H.
  - cbn. now rewrite upd_neq by auto.
  - reflexivity.
  - pose proof (tr_get_stream s c n) as H. destruct (get_tr_stream s c n). cbn in *. now rewrite H.
  - unfold c_begin. set (par := match from_handle s parent with Some r => Some r | None => pseq end).
    set (q0 := match par with Some r => get_handle s r | None => (s, None) end).
    assert (Q0 : tr (fst q0) = tr s) by (subst q0; destruct par; [apply tr_get_handle|reflexivity]).
    destruct q0 as [s0 ph]. cbn [fst] in Q0. pose proof (tr_begin attrs s0 t t0 time ph N) as Hb.
    destruct (begin_tr attrs s0 t0 time ph) as [[s1 ok] link]. cbn [fst] in Hb. rewrite Q0 in Hb.
    destruct ok; [|exact Hb]. cbn zeta.
    set (sh := if c_on (cmp s1 c) then _ else _). assert (Hh : tr (fst sh) = tr s1).
    { subst sh. destruct (c_on (cmp s1 c)); [|reflexivity].
      set (q1 := match name with None => _ | Some n => _ end). assert (Q1 : tr (fst q1) = tr s1).
      { subst q1. destruct name; [apply tr_get_stream|]. destruct (c_main (cmp s1 c)); [reflexivity|]. apply tr_main. }
      destruct q1 as [s2 stream]. cbn [fst] in Q1. destruct stream as [i|]; [|exact Q1].
      match goal with |- context [open_recorder s2 i ?a ?b] => pose proof (tr_open_recorder s2 i a b) as H3; destruct (open_recorder s2 i a b) as [s3 r] end.
      cbn [fst] in H3. destruct r as [r|]; [|cbn; congruence]. rewrite tr_get_handle. cbn [tr set_cmp].
      destruct (from_handle _ link); destruct par; rewrite ?tr_link, ?tr_record; congruence. }
    destruct sh as [s4 h]. cbn in *. now rewrite Hh.
  - unfold c_end. pose proof (tr_end attrs s t t0 time fr N) as He. destruct (end_tr attrs s t0 time fr) as [s1 ok]. cbn [fst] in He.
    destruct ok; [|exact He]. cbn zeta. destruct (c_on (cmp s1 c)); [|exact He].
    destruct (c_trh (cmp s1 c) t0) as [r|]; [|exact He].
    set (s2 := record _ r (attrs t0)). assert (H2 : tr s2 = tr s1).
    { subst s2. rewrite tr_record. cbn. now rewrite tr_get_handle. }
    destruct (close s2 r time) as [s3|] eqn:Ec; [|cbn; now rewrite H2]. apply tr_close in Ec.
    destruct fr; [|cbn; now rewrite Ec, H2].
    destruct (free s3 r 0) as [s4|] eqn:Ef; [|cbn; now rewrite Ec, H2]. apply tr_free in Ef. cbn. now rewrite Ef, Ec, H2.
  - unfold c_event. cbn zeta. set (tm := (if (time =? 0)%Z then now s else time)).
    set (q1 := match name with None => _ | Some n => _ end). assert (Q1 : tr (fst q1) = tr s).
    { subst q1. destruct name; [apply tr_get_stream|]. destruct (c_main (cmp s c)); [reflexivity|]. apply tr_main. }
    destruct q1 as [s2 stream]. cbn [fst] in Q1. destruct stream as [i|]; [|cbn; now rewrite Q1].
    match goal with |- context [open_recorder s2 i ?a ?b] => pose proof (tr_open_recorder s2 i a b) as H3; destruct (open_recorder s2 i a b) as [s3 r] end.
    cbn [fst] in H3. destruct r as [r|]; [|cbn; now rewrite H3, Q1].
    destruct (close (record s3 r lab) r tm) as [s4|] eqn:Ec; [|cbn; now rewrite H3, Q1]. apply tr_close in Ec. rewrite tr_record in Ec.
    destruct keep.
    + pose proof (tr_get_handle s4 r) as H5. destruct (get_handle s4 r) as [s5 h]. cbn in *. now rewrite H5, Ec, H3, Q1.
    + destruct (free s4 r 0) as [s5|] eqn:Ef; [|cbn; now rewrite Ec, H3, Q1]. apply tr_free in Ef. cbn. now rewrite Ef, Ec, H3, Q1.
Qed.
Theorem C125_new attrs cs t : Forall (fun c => ~ concerns t c) cs ->
  let x := tr (run attrs init cs) t in
  t_begin x = (-1)%Z /\ t_end x = (-1)%Z /\ t_accept x = (-1)%Z /\ t_nbegin x = 0 /\ t_nend x = 0 /\ t_naccept x = 0 /\
  t_stream x = None /\ t_rec x = None.
Proof.
  intros F. assert (H : tr (run attrs init cs) t = tr0).
  { change tr0 with (tr init t). revert F. generalize init. induction cs as [|c cs IH]; intros s F; [reflexivity|].
    inversion F as [|? ? F1 F2]; subst. cbn. rewrite (IH _ F2). now apply tr_step. }
  rewrite H. repeat split.
Qed.
Print Assumptions C125_new.
(** accept_tr() sets the time of acceptance and nothing else, except that its event is triggered. *)
Theorem C125_accept attrs s t time :
  let s' := fst (step attrs s (Accept t time)) in
  let x := tr s t in
  tr s' t = Trans (t_stream x) (t_rec x) (t_begin x) (t_end x) (time_of s time) (t_nbegin x) (t_nend x) (S (t_naccept x)) /\
  (forall t', t' <> t -> tr s' t' = tr s t') /\ log s' = log s.
Proof. cbn. rewrite upd_eq. repeat split. intros t' N. now rewrite upd_neq by auto. Qed.
Print Assumptions C125_accept.
(** begin_tr(): a recorder the transaction still has is ended first, at the same time, and freed;
    then, if the transaction records, a new one is opened with the begin time, and its handle is
    returned. *)
Theorem C125_begin attrs cs t time h :
  Forall tr_call cs ->
  let s := run attrs init cs in
  let new := match t_stream (tr s t) with Some _ => Some (nrec s) | None => None end in
  exists s', step attrs s (Begin t time h) = (s', RRef new) /\
    log s' = log s ++ begin_lines attrs s t (time_of s time) h /\
    t_rec (tr s' t) = new /\ t_begin (tr s' t) = time_of s time /\ t_end (tr s' t) = (-1)%Z /\
    t_nbegin (tr s' t) = S (t_nbegin (tr s t)) /\
    t_nend (tr s' t) = (match t_rec (tr s t) with Some _ => S (t_nend (tr s t)) | None => t_nend (tr s t) end) /\
    (forall t', t' <> t -> tr s' t' = tr s t').
Proof.
  intros F s new. pose proof (ti_run attrs cs init (ti_init attrs) F) as T. fold s in T.
  destruct (ti_begin attrs s t time h T) as (s' & E & _ & R). exists s'. cbn [step]. rewrite E. split; auto.
Qed.
Print Assumptions C125_begin.
Definition tr_hist : list call :=
  [OpenStream; SetStream 3 (Some 0); SetStream 4 (Some 0); Tick 5; Begin 3 0 None; Begin 4 0 (Some 0); Tick 8; Begin 3 0 None; End 4 7 false].
Example C125_example :
  Forall tr_call tr_hist /\
  let s := run at1 init tr_hist in
  log s = [WStream 0; WOpen 0 0 5 false; WOpen 1 0 5 true; WAttr 0 3; WClose 0 8; WFree 0; WOpen 2 0 8 false; WAttr 1 4; WClose 1 7] /\
  t_rec (tr s 3) = Some 2 /\ t_rec (tr s 4) = None /\ t_end (tr s 4) = 7%Z.
Proof. split; [repeat constructor|vm_compute; repeat split]. Qed.
(** Switching recording off between begin_tr() and end_tr() loses the recorder: it stays open. *)
Theorem C125_disable_limit :
  let s := run at1 init [OpenStream; SetStream 3 (Some 0); Tick 5; Begin 3 0 None; SetStream 3 None; Tick 6; End 3 0 true] in
  t_rec (tr s 3) = None /\ r_life (rec s 0) = LOpen /\ lines 0 (log s) = [WOpen 0 0 5 false].
Proof. vm_compute. repeat split. Qed.
Print Assumptions C125_disable_limit.

(** ** C126: components *)
(** begin_tr() of a component that records, on a stream of its own (and on the main stream the
    first time): a recorder with the begin time is opened, with the label lines, and kept for the
    transaction; its handle is returned. *)
Theorem C126_begin attrs cs c t par q n lab time i pre :
  let s := run attrs init cs in
  db s <> Closed -> c_on (cmp s c) = true -> t_stream (tr s t) = None -> t_rec (tr s t) = None -> resolved s c n i pre ->
  exists s', step attrs s (CBegin c t par q n lab time) = (s', RRef (Some (nrec s))) /\
    log s' = log s ++ pre ++
      WOpen (nrec s) i (time_of s time) (match from_handle s par, q with None, None => false | _, _ => true end)
      :: map (WAttr (nrec s)) lab /\
    c_trh (cmp s' c) t = Some (nrec s) /\ r_life (rec s' (nrec s)) = LOpen.
Proof.
  intros s D On TS TR R. destruct (c_begin_eff attrs s c t par q n lab time i pre (run_wf attrs cs init wf_init) D On TS TR R)
    as (s' & ch & E & -> & L & H & A & _). exists s'. cbn [step]. rewrite E. auto.
Qed.
Print Assumptions C126_begin.
(** end_tr(): the recorder kept for the transaction is ended with the end time and forgotten. If
    somebody has freed it, end_tr() raises. *)
Theorem C126_end attrs cs c t time fr r :
  let s := run attrs init cs in
  db s = Opened -> c_on (cmp s c) = true -> t_stream (tr s t) = None -> c_trh (cmp s c) t = Some r ->
  (active (r_life (rec s r)) ->
   exists s', step attrs s (CEnd c t time fr) = (s', RUnit) /\
     log s' = log s ++ end_lines attrs t r (time_of s time) fr /\
     c_trh (cmp s' c) t = None /\ r_life (rec s' r) = (if fr then LFreed else LClosed)) /\
  (r_life (rec s r) = LFreed -> snd (step attrs s (CEnd c t time fr)) = RRaise).
Proof.
  intros s D On TS H. split.
  - intros A. destruct (c_end_eff attrs s c t time fr r D On TS H A) as (s' & E & L & K & Q). exists s'. cbn [step]. rewrite E. auto.
  - intros A. pose proof (c_end_freed attrs s c t time fr r On TS H A) as E. cbn [step]. destruct (c_end attrs s c t time fr) as [s' ok]. cbn in *. now subst ok.
Qed.
Print Assumptions C126_end.
(** Between them the recorder is kept, whatever else is called. *)
Theorem C126_kept attrs cs c t xs :
  Forall (apart c t) xs ->
  let s := run attrs init cs in
  c_trh (cmp (run attrs s xs) c) t = c_trh (cmp s c) t.
Proof. intros F s. apply (run_keeps attrs c t xs s F). Qed.
Print Assumptions C126_kept.
(** Only one transaction is ever recorded on the main stream: once a component has one, begin_tr()
    without a stream name returns the handle 0 and keeps no recorder, for the rest of the run; what
    is written and opened is what begin_tr() of the transaction itself does. *)
Theorem C126_main_once attrs cs xs c t par q lab time :
  let s := run attrs init cs in
  c_main (cmp s c) <> None ->
  let s1 := run attrs s xs in
  let o := step attrs s1 (CBegin c t par q None lab time) in
  (snd o = RRef None \/ snd o = RRaise) /\ c_trh (cmp (fst o) c) = c_trh (cmp s1 c) /\
  exists s2 h, (s2 = s1 \/ exists r, s2 = set_reg s1 r true) /\
    log (fst o) = log (fst (step attrs s2 (Begin t time h))) /\ nrec (fst o) = nrec (fst (step attrs s2 (Begin t time h))).
Proof.
  intros s M s1 o. pose proof (run_main attrs c xs s M) as E. fold s1 in E.
  assert (M1 : c_main (cmp s1 c) <> None) by congruence.
  pose proof (c_begin_main attrs s1 c t par q lab time M1) as (A & B & s2 & h & D & L & N).
  unfold o. cbn [step]. destruct (c_begin attrs s1 c t par q None lab time) as [[s3 ok] x]. cbn [fst snd] in *. subst x.
  split; [destruct ok; auto|]. split; auto. exists s2, h. split; auto. cbn [step]. destruct (begin_tr attrs s2 t time h) as [[s4 ok4] x4].
  cbn [fst] in *. auto.
Qed.
Print Assumptions C126_main_once.
(** No history ever writes a link line. *)
Theorem C126_no_link attrs cs : existsb link (log (run attrs init cs)) = false.
Proof. apply w_link, run_wf, wf_init. Qed.
Print Assumptions C126_no_link.

Definition comp_hist : list call :=
  [SetOn 2 true; Tick 5; CBegin 2 7 None None (Some 1) [9] 0; Tick 6; CBegin 2 8 None None None [] 0; CEnd 2 8 0 true;
   CBegin 2 8 (Some 0) None None [] 0; CEnd 2 7 0 true].
Example C126_example :
  log (run at1 init comp_hist) =
    [WStream 0; WOpen 0 0 5 false; WAttr 0 9; WStream 1; WOpen 1 1 6 false; WAttr 1 8; WClose 1 6; WFree 1; WAttr 0 7; WClose 0 6; WFree 0] /\
  map (fun k => c_main (cmp (run at1 init (firstn k comp_hist)) 2)) [4; 5; 8] = [None; Some 1; Some 1] /\
  snd (step at1 (run at1 init (firstn 6 comp_hist)) (CBegin 2 8 (Some 0) None None [] 0)) = RRef None /\
  resolved (run at1 init (firstn 2 comp_hist)) 2 (Some 1) 0 [WStream 0] /\
  resolved (run at1 init (firstn 4 comp_hist)) 2 (Some 1) 0 [].
Proof. vm_compute. repeat split; auto. Qed.
(** A second begin_tr() of a transaction that has not ended, and switching the component's
    recording off before end_tr(), both leave the recorder open. *)
Theorem C126_leak_limit :
  (let s := run at1 init [SetOn 2 true; CBegin 2 7 None None (Some 1) [] 5; CBegin 2 7 None None (Some 1) [] 6; CEnd 2 7 8 true; CEnd 2 7 9 true] in
   r_life (rec s 0) = LOpen /\ r_life (rec s 1) = LFreed /\ c_trh (cmp s 2) 7 = None) /\
  (let s := run at1 init [SetOn 2 true; CBegin 2 7 None None (Some 1) [] 5; SetOn 2 false; CEnd 2 7 8 true] in
   r_life (rec s 0) = LOpen /\ c_trh (cmp s 2) 7 = Some 0).
Proof. vm_compute. repeat split. Qed.
Print Assumptions C126_leak_limit.
