(** C68: the request/response channel. *)
From Coq Require Import ZArith List Bool Arith Lia.
From Verif Require Import Prelude MailboxModel MailboxSpec MailboxProofs TlmFifoModel TlmFifoSpec TlmFifoProofs ChanModel.
Import ListNotations.

Section Spec.
Context {A : Type}.
(** What a call through an export is for. *)
Inductive role := SendReq | SendRsp | RecvReq | RecvRsp.
Definition role_of (e : export) (o : xop A) : option role :=
  match e, o with
  | (EMaster | EPutReq), (XPut _ | XTryPut _) => Some SendReq
  | (ESlave | EPutRsp), (XPut _ | XTryPut _) => Some SendRsp
  | (ESlave | EGetReq), (XGet | XTryGet | XPeek | XTryPeek) => Some RecvReq
  | (EMaster | EGetRsp), (XGet | XTryGet | XPeek | XTryPeek) => Some RecvRsp
  | _, _ => None
  end.
Definition role_eqb (a b : role) : bool :=
  match a, b with SendReq, SendReq | SendRsp, SendRsp | RecvReq, RecvReq | RecvRsp, RecvRsp => true | _, _ => false end.

(** The items, in order, that calls of a given role have passed into or got out of the
    channel: an item belongs to the latest call of its process. *)
Definition whos := nat -> option role.
Definition item (r : role) (w : whos) (m : mout A) : list A :=
  match m with
  | OAccepted p x | ODelivered p x =>
      match w p with Some r' => if role_eqb r r' then [x] else [] | None => [] end
  | _ => []
  end.
Fixpoint items (r : role) (w : whos) (tr : list (cout A)) : list A :=
  match tr with
  | [] => []
  | Called p e o :: t => items r (upd w p (role_of e o)) t
  | Gives m :: t => item r w m ++ items r w t
  | OnAp _ _ :: t => items r w t
  end.
Definition passed (r : role) (tr : list (cout A)) : list A := items r (fun _ => None) tr.
Definition on_ap (s : side) (tr : list (cout A)) : list A :=
  flat_map (fun o => match o, s with OnAp Req x, Req => [x] | OnAp Rsp x, Rsp => [x] | _, _ => [] end) tr.
End Spec.

Section Proofs.
Context {A : Type}.
Implicit Types (m : mbox A) (f : fifo A) (c : chan A).

(** Where a suspended process is: sending, or receiving. *)
Definition sends (s : pstate A) : option bool :=
  match s with
  | Idle => None
  | WaitPut _ | WokenPut _ => Some true
  | _ => Some false
  end.
Lemma sends_wake_write s : sends (wake_write s) = sends s.
Proof. now destruct s. Qed.
Lemma sends_wake_read s : sends (wake_read s) = sends s.
Proof. now destruct s. Qed.

(** What an event says about its process. *)
Definition ev_ok (p : nat) (b : bool) (e : mout A) : Prop :=
  match e with
  | OAccepted q _ => q = p /\ b = true
  | ODelivered q _ => q = p /\ b = false
  | _ => True
  end.
Definition step_by (p : nat) (b : bool) m (r : mbox A * list (mout A)) : Prop :=
  (forall q, q <> p -> sends (procs (fst r) q) = sends (procs m q)) /\
  (sends (procs (fst r) p) = None \/ sends (procs (fst r) p) = Some b \/ fst r = m) /\
  Forall (ev_ok p b) (snd r).

Ltac by_tac :=
  unfold put_tail, get_tail, peek_tail;
  split; [|split]; cbn [fst snd set_proc set_write set_read set_queue clear_read clear_write procs];
  [let q' := fresh "q" in let Hq := fresh "Hq" in intros q' Hq; rewrite ?upd_neq by congruence; rewrite ?sends_wake_write, ?sends_wake_read; reflexivity
  |rewrite ?upd_eq; auto
  |repeat constructor].
Lemma put_loop_by m p x : step_by p true m (put_loop m p x).
Proof. unfold put_loop. destruct (can_put m); [|destruct (read_flag (clear_read m)) eqn:E; [discriminate E|]]; by_tac. Qed.
Lemma get_loop_by m p : step_by p false m (get_loop m p) \/ queue m = [].
Proof.
  unfold get_loop, get_tail. destruct (queue m) as [|x q] eqn:Eq; [now right|left].
  destruct (can_get m) eqn:Ec; [by_tac|]. apply can_get_false in Ec. congruence.
Qed.
Lemma get_loop_by' m p : step_by p false m (get_loop m p).
Proof.
  destruct (get_loop_by m p) as [H|E]; [exact H|]. unfold get_loop.
  destruct (can_get m) eqn:Ec; [apply can_get_iff in Ec; congruence|].
  destruct (write_flag (clear_write m)) eqn:Ew; [discriminate Ew|]. by_tac.
Qed.
Lemma peek_tail_by m p : step_by p false m (peek_tail m p).
Proof. by_tac. Qed.
Lemma peek_start_by m p : step_by p false m (peek_start m p).
Proof. unfold peek_start. destruct (can_get m); [by_tac|]. destruct (write_flag (clear_write m)); by_tac. Qed.
Lemma step_by_clear_read m p b r : step_by p b (clear_read m) r -> fst r <> clear_read m \/ sends (procs m p) = Some b -> step_by p b m r.
Proof.
  intros (H1 & H2 & H3) H. split; [exact H1|]. split; [|exact H3].
  destruct H2 as [H2|[H2|H2]]; auto. destruct H as [H|H]; [contradiction|]. right. left. rewrite H2. exact H.
Qed.
Lemma step_by_clear_write m p b r : step_by p b (clear_write m) r -> sends (procs m p) = Some b -> step_by p b m r.
Proof.
  intros (H1 & H2 & H3) H. split; [exact H1|]. split; [|exact H3].
  destruct H2 as [H2|[H2|H2]]; auto. right. left. rewrite H2. exact H.
Qed.
Definition op_puts (o : mop A) : bool := match o with Put _ | TryPut _ => true | _ => false end.
Lemma mstep_call m p o : procs m p = Idle -> step_by p (op_puts o) m (mstep m (Call p o)).
Proof.
  intros Hi. cbn [mstep]. rewrite Hi. destruct o as [x| | |x| |]; cbn [op_puts].
  - pose proof (put_loop_by m p x) as (H1 & H2 & H3). destruct (put_loop m p x) as [m' o]. split; [exact H1|]. split; [exact H2|].
    constructor; [exact I|exact H3].
  - apply get_loop_by'.
  - apply peek_start_by.
  - unfold try_put. destruct (can_put m); by_tac. left. rewrite sends_wake_write, Hi. reflexivity.
  - unfold try_get. destruct (can_get m); [|by_tac]. destruct (queue m); by_tac. left. rewrite sends_wake_read, Hi. reflexivity.
  - unfold try_peek. destruct (can_get m); by_tac.
Qed.
Lemma mstep_resume m p b : sends (procs m p) = Some b -> step_by p b m (mstep m (Resume p)).
Proof.
  intros Hb. cbn [mstep]. destruct (procs m p) eqn:E; cbn in Hb; try discriminate Hb; injection Hb as <-; try by_tac.
  - apply step_by_clear_read; [apply put_loop_by|right; rewrite E; reflexivity].
  - apply step_by_clear_write; [apply get_loop_by'|rewrite E; reflexivity].
Qed.

(** The same for the FIFO. *)
Definition fev_ok (p : nat) (b : bool) (e : fout A) : Prop := match e with FM m => ev_ok p b m | _ => True end.
Definition fstep_by (p : nat) (b : bool) f (r : fifo A * list (fout A)) : Prop :=
  (forall q, q <> p -> sends (procs (fm (fst r)) q) = sends (procs (fm f) q)) /\
  (sends (procs (fm (fst r)) p) = None \/ sends (procs (fm (fst r)) p) = Some b \/ fm (fst r) = fm f) /\
  Forall (fev_ok p b) (snd r).
Lemma after_blocking_by f g p b r : fm g = fm f -> step_by p b (fm f) r -> fstep_by p b f (after_blocking g r).
Proof.
  intros Hg (H1 & H2 & H3). destruct r as [m o]. unfold after_blocking. cbn [fst snd] in *.
  split; [exact H1|]. split; [exact H2|]. cbn [snd].
  apply Forall_flat_map. eapply Forall_impl; [|exact H3]. intros e He. destruct e; repeat constructor; try exact He; apply He.
Qed.
Lemma fstep_call f p o : procs (fm f) p = Idle -> fstep_by p (is_put o) f (fstep f (FCall p (fifo_op o))).
Proof.
  intros Hi. cbn [fstep]. rewrite Hi. destruct o as [x|x| | | |]; cbn [fifo_op is_put].
  - apply after_blocking_by; [reflexivity|]. apply (mstep_call (fm f) p (Put x) Hi).
  - apply after_blocking_by; [reflexivity|]. apply (mstep_call (fm f) p (TryPut x) Hi).
  - apply after_blocking_by; [reflexivity|]. apply (mstep_call (fm f) p Get Hi).
  - destruct (ftry_get_cases f p []) as [(x & q & m & Hq & Hm & Em & E)|[Hq E]]; rewrite E.
    + split; [|split]; cbn [fst snd fm].
      * intros q' _. subst m. cbn. apply sends_wake_read.
      * left. subst m. cbn. rewrite Hi. reflexivity.
      * repeat constructor.
    + split; [|split]; cbn [fst snd fm]; auto. repeat constructor.
  - apply after_blocking_by; [reflexivity|]. apply (mstep_call (fm f) p Peek Hi).
  - apply after_blocking_by; [reflexivity|]. apply (mstep_call (fm f) p TryPeek Hi).
Qed.
Lemma fstep_resume f p b : sends (procs (fm f) p) = Some b -> fstep_by p b f (fstep f (FResume p)).
Proof. intros H. cbn [fstep]. apply after_blocking_by; [reflexivity|]. now apply mstep_resume. Qed.

(** Roles: of the processes suspended in each FIFO. *)
Definition role_at (s : side) (puts : bool) : role :=
  match s, puts with Req, true => SendReq | Req, false => RecvReq | Rsp, true => SendRsp | Rsp, false => RecvRsp end.
Fixpoint whos_after (w : @whos) (tr : list (cout A)) : whos :=
  match tr with
  | [] => w
  | Called p e o :: t => whos_after (upd w p (role_of e o)) t
  | _ :: t => whos_after w t
  end.
Lemma items_app r tr : forall w tr', items r w (tr ++ tr') = items r w tr ++ items r (whos_after w tr) tr'.
Proof.
  induction tr as [|[p e o|m|s x] t IH]; intros w tr'; cbn [app items whos_after]; auto.
  now rewrite IH, app_assoc.
Qed.
Lemma whos_app tr : forall w tr', whos_after w (tr ++ tr') = whos_after (whos_after w tr) tr'.
Proof. induction tr as [|[p e o|m|s x] t IH]; intros w tr'; cbn [app whos_after]; auto. Qed.
Lemma whos_lift s o w : whos_after w (flat_map (lift s) o) = w.
Proof. induction o as [|e o IH]; [reflexivity|]. destruct e; exact IH. Qed.

Definition get_fifo c (s : side) := match s with Req => req_fifo c | Rsp => rsp_fifo c end.
Definition WInv c (w : @whos) : Prop :=
  forall s p b, sends (procs (fm (get_fifo c s)) p) = Some b -> w p = Some (role_at s b).
(** Suspended in one FIFO at most. *)
Definition OneInv c : Prop :=
  forall p, sends (procs (fm (req_fifo c)) p) = None \/ sends (procs (fm (rsp_fifo c)) p) = None.

Lemma lift_items s p b o w : w p = Some (role_at s b) -> Forall (fev_ok p b) o ->
  items (role_at s true) w (flat_map (lift s) o) = f_accepted o /\
  items (role_at s false) w (flat_map (lift s) o) = f_removed o /\
  (forall s' b', s' <> s -> items (role_at s' b') w (flat_map (lift s) o) = []).
Proof.
  intros Hw. induction 1 as [|e o He _ (I1 & I2 & I3)]; [cbn; auto|].
  cbn [flat_map]. destruct e as [me|x|x| |]; cbn [lift app].
  - cbn [items]. rewrite I1, I2. cbn [fev_ok] in He.
    split; [|split].
    + destruct me as [q x|q x|q x|q x|q x|q|q|q]; cbn in He |- *; try reflexivity; destruct He as [-> ->]; rewrite Hw; destruct s; reflexivity.
    + destruct me as [q x|q x|q x|q x|q x|q|q|q]; cbn in He |- *; try reflexivity; destruct He as [-> ->]; rewrite Hw; destruct s; reflexivity.
    + intros s' b' Hs. rewrite I3 by exact Hs. rewrite app_nil_r.
      destruct me as [q x|q x|q x|q x|q x|q|q|q]; cbn in He |- *; try reflexivity; destruct He as [-> ->]; rewrite Hw; destruct s, s', b'; try reflexivity; congruence.
  - cbn [items]. cbn. auto.
  - cbn [items]. cbn. auto.
  - cbn. auto.
  - cbn. auto.
Qed.
Lemma lift_ap s (o : list (fout A)) s' : on_ap s' (flat_map (lift s) o) = match s, s' with Req, Req | Rsp, Rsp => on_put_ap o | _, _ => [] end.
Proof.
  induction o as [|e o IH]; [now destruct s, s'|].
  cbn [flat_map]. unfold on_ap in *. rewrite flat_map_app, IH.
  destruct e as [me|x|x| |], s, s'; reflexivity.
Qed.

Definition CGood (n1 n2 : Z) c (tr : list (cout A)) : Prop :=
  FInv n1 (req_fifo c) /\ FInv n2 (rsp_fifo c) /\ OneInv c /\
  WInv c (whos_after (fun _ => None) tr) /\
  (forall s, passed (role_at s true) tr = passed (role_at s false) tr ++ queue (fm (get_fifo c s))) /\
  (forall s, on_ap s tr = passed (role_at s true) tr).

Lemma on_ap_app s a b : on_ap s (a ++ b) = @on_ap A s a ++ on_ap s b.
Proof. apply flat_map_app. Qed.
Lemma on_side_get c s l : fst (on_side c s l) = match s with Req => Chan (fst (fstep (req_fifo c) l)) (rsp_fifo c) | Rsp => Chan (req_fifo c) (fst (fstep (rsp_fifo c) l)) end.
Proof. destruct s; cbn; destruct (fstep _ l); reflexivity. Qed.
Lemma on_side_out c s l : snd (on_side c s l) = flat_map (lift s) (snd (fstep (get_fifo c s) l)).
Proof. destruct s; cbn; destruct (fstep _ l); reflexivity. Qed.

(** One step in a FIFO by a process whose role is known. *)
Lemma side_step n1 n2 c tr tr0 s l p b :
  CGood n1 n2 c tr ->
  (* tr0: tr, perhaps with the start of the call *)
  (forall r, passed r tr0 = passed r tr) -> (forall s', on_ap s' tr0 = on_ap s' tr) ->
  (forall q, q <> p -> whos_after (fun _ => None) tr0 q = whos_after (fun _ => None) tr q) ->
  whos_after (fun _ => None) tr0 p = Some (role_at s b) ->
  (forall s', s' <> s -> sends (procs (fm (get_fifo c s')) p) = None) ->
  (sends (procs (fm (get_fifo c s)) p) = None \/ sends (procs (fm (get_fifo c s)) p) = Some b) ->
  fstep_by p b (get_fifo c s) (fstep (get_fifo c s) l) ->
  CGood n1 n2 (fst (on_side c s l)) (tr0 ++ snd (on_side c s l)).
Proof.
  intros (F1 & F2 & O1 & W & Q & P) Hp Ha Hw Hwp Hoth Hown (B1 & B2 & B3).
  rewrite on_side_get, on_side_out.
  assert (FS : forall n, FInv n (get_fifo c s) -> FStepOk n (queue (fm (get_fifo c s))) (fstep (get_fifo c s) l)) by (intros n; apply fstep_ok).
  destruct (fstep (get_fifo c s) l) as [f' o] eqn:Ef. cbn [fst snd] in *.
  assert (OS : forall s', s' <> s -> s' = match s with Req => Rsp | Rsp => Req end) by (intros [] Hs; destruct s; congruence).
  set (c' := match s with Req => Chan (fst (fstep (req_fifo c) l)) (rsp_fifo c) | Rsp => Chan (req_fifo c) (fst (fstep (rsp_fifo c) l)) end).
  assert (G1 : get_fifo c' s = f') by (unfold c'; destruct s; cbn in *; rewrite Ef; reflexivity).
  assert (G2 : forall s', s' <> s -> get_fifo c' s' = get_fifo c s') by (intros s' Hs; unfold c'; destruct s, s'; try congruence; reflexivity).
  destruct (lift_items s p b o _ Hwp B3) as (I1 & I2 & I3).
  assert (SP : sends (procs (fm f') p) = None \/ sends (procs (fm f') p) = Some b).
  { destruct B2 as [B2|[B2|B2]]; auto. rewrite B2. exact Hown. }
  assert (F : exists n, FInv n (get_fifo c s)) by (destruct s; eauto). destruct F as (n & F).
  destruct (FS n F) as (K1 & K2 & K3 & K4). cbn [fst snd] in *.
  unfold CGood. split; [|split; [|split; [|split; [|split]]]].
  - destruct s; unfold c'; cbn [req_fifo]; [|exact F1]. cbn in Ef. rewrite Ef. cbn [fst]. exact (proj1 (FS n1 F1)).
  - destruct s; unfold c'; cbn [rsp_fifo]; [exact F2|]. cbn in Ef. rewrite Ef. cbn [fst]. exact (proj1 (FS n2 F2)).
  - intros q. destruct (Nat.eq_dec q p) as [->|Hq].
    + destruct s; [right|left]; [change (rsp_fifo c') with (get_fifo c' Rsp); rewrite G2 by discriminate; apply Hoth; discriminate
                                |change (req_fifo c') with (get_fifo c' Req); rewrite G2 by discriminate; apply Hoth; discriminate].
    + specialize (O1 q). specialize (B1 q Hq).
      destruct s.
      * change (req_fifo c') with (get_fifo c' Req). change (rsp_fifo c') with (get_fifo c' Rsp).
        rewrite G1, (G2 Rsp) by discriminate. rewrite B1. exact O1.
      * change (req_fifo c') with (get_fifo c' Req). change (rsp_fifo c') with (get_fifo c' Rsp).
        rewrite G1, (G2 Req) by discriminate. rewrite B1. exact O1.
  - rewrite whos_app, whos_lift. intros s' q b' Hq.
    destruct (Nat.eq_dec q p) as [->|Nq].
    + destruct s, s'; try (rewrite G2 in Hq by discriminate; rewrite Hoth in Hq by discriminate; discriminate Hq);
        rewrite G1 in Hq; destruct SP as [SP|SP]; rewrite SP in Hq; try discriminate Hq; injection Hq as <-; exact Hwp.
    + rewrite Hw by exact Nq. apply W.
      destruct s, s'; try (rewrite G2 in Hq by discriminate; exact Hq); rewrite G1 in Hq; rewrite <- B1 by exact Nq; exact Hq.
  - intros s'. unfold passed in *. rewrite !items_app, !Hp.
    destruct s, s'; rewrite ?G1, ?(G2 Req), ?(G2 Rsp) by discriminate.
    + rewrite I1, I2, Q, <- !app_assoc, K2. reflexivity.
    + rewrite !I3 by discriminate. rewrite !app_nil_r. apply Q.
    + rewrite !I3 by discriminate. rewrite !app_nil_r. apply Q.
    + rewrite I1, I2, Q, <- !app_assoc, K2. reflexivity.
  - intros s'. rewrite on_ap_app, Ha, lift_ap. unfold passed in *. rewrite items_app, Hp, P.
    destruct s, s'; rewrite ?I1, ?K3; try reflexivity; rewrite I3 by discriminate; reflexivity.
Qed.

Lemma not_busy f p : busy f p = false -> procs (fm f) p = Idle /\ sends (procs (fm f) p) = None.
Proof. unfold busy. destruct (procs (fm f) p); try discriminate; auto. Qed.
Lemma is_busy f p : busy f p = true -> exists b, sends (procs (fm f) p) = Some b.
Proof. unfold busy. destruct (procs (fm f) p); try discriminate; cbn; eauto. Qed.

Lemma cgood_step n1 n2 c tr l : CGood n1 n2 c tr -> CGood n1 n2 (fst (cstep c l)) (tr ++ snd (cstep c l)).
Proof.
  intros G. assert (Stay : CGood n1 n2 c (tr ++ [])) by (rewrite app_nil_r; exact G).
  destruct l as [p e o|p]; cbn [cstep].
  - destruct (busy (req_fifo c) p || busy (rsp_fifo c) p) eqn:Eb; [exact Stay|].
    apply orb_false_iff in Eb. destruct Eb as (E1 & E2). apply not_busy in E1, E2.
    destruct (target e (is_put o)) as [s|] eqn:Et; [|exact Stay].
    assert (R : role_of e o = Some (role_at s (is_put o))).
    { destruct e, o; cbn in Et; try discriminate Et; injection Et as <-; reflexivity. }
    destruct (on_side c s (FCall p (fifo_op o))) as [c' out] eqn:Eo. cbn [fst snd].
    assert (Ec : c' = fst (on_side c s (FCall p (fifo_op o)))) by now rewrite Eo.
    assert (Eout : out = snd (on_side c s (FCall p (fifo_op o)))) by now rewrite Eo.
    rewrite Ec, Eout.
    change (Called p e o :: snd (on_side c s (FCall p (fifo_op o)))) with ([Called p e o] ++ snd (on_side c s (FCall p (fifo_op o)))).
    rewrite app_assoc.
    apply (side_step n1 n2 c tr (tr ++ [Called p e o]) s _ p (is_put o)); auto.
    + intros r. unfold passed. rewrite items_app. cbn. apply app_nil_r.
    + intros s'. rewrite on_ap_app. cbn. apply app_nil_r.
    + intros q Hq. rewrite whos_app. cbn [whos_after]. now rewrite upd_neq by congruence.
    + rewrite whos_app. cbn [whos_after]. now rewrite upd_eq.
    + intros s' _. destruct s'; [apply E1|apply E2].
    + left. destruct s; [apply E1|apply E2].
    + apply fstep_call. destruct s; [apply E1|apply E2].
  - pose proof G as (_ & _ & O1 & W & _).
    destruct (busy (req_fifo c) p) eqn:E1; [|destruct (busy (rsp_fifo c) p) eqn:E2; [|exact Stay]].
    + apply is_busy in E1. destruct E1 as (b & Eb).
      apply (side_step n1 n2 c tr tr Req _ p b); [exact G|reflexivity|reflexivity|reflexivity| | | | ].
      * apply (W Req p b Eb).
      * intros s' Hs. destruct s'; [congruence|]. destruct (O1 p) as [X|X]; [congruence|exact X].
      * now right.
      * apply fstep_resume. exact Eb.
    + apply is_busy in E2. destruct E2 as (b & Eb).
      apply (side_step n1 n2 c tr tr Rsp _ p b); [exact G|reflexivity|reflexivity|reflexivity| | | | ].
      * apply (W Rsp p b Eb).
      * intros s' Hs. destruct s'; [|congruence]. apply not_busy in E1. apply E1.
      * now right.
      * apply fstep_resume. exact Eb.
Qed.
Lemma cgood_run n1 n2 ls : CGood n1 n2 (fst (crun n1 n2 ls)) (snd (crun n1 n2 ls)).
Proof.
  apply (run_machine_inv cstep (CGood n1 n2) (cgood_step n1 n2) ls (chan0 n1 n2) []).
  split; [apply finv_init|]. split; [apply finv_init|]. split; [intros p; now left|].
  split; [intros s p b H; destruct s; discriminate H|]. split; [intros s; destruct s; reflexivity|intros s; destruct s; reflexivity].
Qed.
End Proofs.

(** For every channel, whatever calls the users make through any of the exports and
    however the processes are scheduled: the requests received are the requests sent,
    in order, up to the ones still inside; likewise the responses; and each analysis
    port shows exactly what was sent. *)
Theorem C68_requests {A} n1 n2 (ls : list (clab A)) :
  exists inside, passed SendReq (snd (crun n1 n2 ls)) = passed RecvReq (snd (crun n1 n2 ls)) ++ inside.
Proof. destruct (cgood_run n1 n2 ls) as (_ & _ & _ & _ & Q & _). eexists. exact (Q Req). Qed.
Theorem C68_responses {A} n1 n2 (ls : list (clab A)) :
  exists inside, passed SendRsp (snd (crun n1 n2 ls)) = passed RecvRsp (snd (crun n1 n2 ls)) ++ inside.
Proof. destruct (cgood_run n1 n2 ls) as (_ & _ & _ & _ & Q & _). eexists. exact (Q Rsp). Qed.
Theorem C68_analysis_ports {A} n1 n2 (ls : list (clab A)) :
  on_ap Req (snd (crun n1 n2 ls)) = passed SendReq (snd (crun n1 n2 ls)) /\
  on_ap Rsp (snd (crun n1 n2 ls)) = passed SendRsp (snd (crun n1 n2 ls)).
Proof. destruct (cgood_run n1 n2 ls) as (_ & _ & _ & _ & _ & P). split; [exact (P Req)|exact (P Rsp)]. Qed.

(** Everything sent is received once the receivers have got as many items as were sent. *)
Theorem C68_all_received {A} n1 n2 (ls : list (clab A)) :
  length (passed RecvReq (snd (crun n1 n2 ls))) = length (passed SendReq (snd (crun n1 n2 ls))) ->
  passed RecvReq (snd (crun n1 n2 ls)) = passed SendReq (snd (crun n1 n2 ls)).
Proof.
  destruct (C68_requests n1 n2 ls) as (i & E). rewrite E, app_length. intros H.
  destruct i; [now rewrite app_nil_r|]. cbn in H. lia.
Qed.
(** Process 0 sends requests 1, 2 through the master export; process 1 receives
    through the slave export and sends back 10; process 2 receives the response. *)
Definition ex_run : list (clab nat) :=
  [CCall 1 ESlave XGet; CCall 0 EMaster (XPut 1); CCall 2 EMaster XGet; CResume 1; CCall 1 ESlave (XPut 10);
   CResume 2; CCall 0 EPutReq (XTryPut 2); CCall 1 EGetReq XTryGet].
Example C68_example :
  let tr := snd (crun 1 1 ex_run) in
  passed SendReq tr = [1; 2] /\ passed RecvReq tr = [1; 2] /\ passed SendRsp tr = [10] /\ passed RecvRsp tr = [10] /\
  on_ap Req tr = [1; 2].
Proof. vm_compute. auto 10. Qed.
Print Assumptions C68_requests.
Print Assumptions C68_responses.
Print Assumptions C68_analysis_ports.
Print Assumptions C68_all_received.
