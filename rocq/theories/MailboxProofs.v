From Coq Require Import ZArith List Bool Arith Lia.
From Verif Require Import Prelude MailboxModel MailboxSpec.
Import ListNotations.

Section Proofs.
Context {A : Type}.

Ltac ev := unfold mstep, put_loop, get_loop, peek_start, put_tail, get_tail,
  peek_tail, try_put, try_get, try_peek in *.

Lemma can_get_iff (m : mbox A) : can_get m = true <-> queue m <> [].
Proof.
  unfold can_get. destruct (queue m); cbn [length]; split; intros H; easy.
Qed.

Lemma can_get_false (m : mbox A) : can_get m = false <-> queue m = [].
Proof.
  unfold can_get. destruct (queue m); cbn [length]; split; intros H; easy.
Qed.

(** Invariant of the state alone. *)
Record Inv (n : Z) (m : mbox A) : Prop := {
  inv_max : max_size m = n;
  inv_bound : (0 < n)%Z -> (Z.of_nat (length (queue m)) <= n)%Z;
  inv_get : forall p, procs m p = WaitGet -> queue m = [];
  inv_peek : forall p, procs m p = WaitPeek -> queue m = [];
  inv_put : forall p x, procs m p = WaitPut x ->
     (0 < n)%Z /\ Z.of_nat (length (queue m)) = n
}.

Definition Good (p0 : nat) (n : Z) (m : mbox A) (tr : list (mout A)) : Prop :=
  Inv n m /\ accepted tr = delivered tr ++ queue m /\
  offered_by p0 tr = resolved_by p0 tr ++ pending (procs m p0) /\
  Forall (fun o => match o with OSpin _ | ORaise _ => False | _ => True end) tr.

Lemma wake_write_put (s : pstate A) x : wake_write s = WaitPut x -> s = WaitPut x.
Proof. destruct s; cbn; congruence. Qed.
Lemma wake_read_get (s : pstate A) : wake_read s = WaitGet -> s = WaitGet.
Proof. destruct s; cbn; congruence. Qed.
Lemma wake_read_peek (s : pstate A) : wake_read s = WaitPeek -> s = WaitPeek.
Proof. destruct s; cbn; congruence. Qed.
Lemma wake_write_pending (s : pstate A) : pending (wake_write s) = pending s.
Proof. now destruct s. Qed.
Lemma wake_read_pending (s : pstate A) : pending (wake_read s) = pending s.
Proof. now destruct s. Qed.

Lemma upd_cases {B} (f : nat -> B) i v j :
  (j = i /\ upd f i v j = v) \/ (j <> i /\ upd f i v j = f j).
Proof.
  destruct (Nat.eq_dec j i) as [->|H].
  - left. split; auto using upd_eq.
  - right. split; auto using upd_neq.
Qed.

Lemma accepted_app tr (o : list (mout A)) : accepted (tr ++ o) = accepted tr ++ accepted o.
Proof. apply flat_map_app. Qed.
Lemma delivered_app tr (o : list (mout A)) : delivered (tr ++ o) = delivered tr ++ delivered o.
Proof. apply flat_map_app. Qed.
Lemma offered_app p tr (o : list (mout A)) : offered_by p (tr ++ o) = offered_by p tr ++ offered_by p o.
Proof. apply flat_map_app. Qed.
Lemma resolved_app p tr (o : list (mout A)) : resolved_by p (tr ++ o) = resolved_by p tr ++ resolved_by p o.
Proof. apply flat_map_app. Qed.

Ltac break_upd :=
  repeat match goal with
  | H : context [upd ?f ?i ?v ?j] |- _ =>
      destruct (upd_cases f i v j) as [[? ->]|[? ->]] in H; subst
  end.

Lemma inv_cases n (m : mbox A) :
  max_size m = n ->
  ((0 < n)%Z -> (Z.of_nat (length (queue m)) <= n)%Z) ->
  (forall p, match procs m p with
     | WaitGet | WaitPeek => queue m = []
     | WaitPut _ => (0 < n)%Z /\ Z.of_nat (length (queue m)) = n
     | _ => True end) -> Inv n m.
Proof.
  intros H1 H2 H3. split; auto; intros p.
  - specialize (H3 p). intros E. now rewrite E in H3.
  - specialize (H3 p). intros E. now rewrite E in H3.
  - specialize (H3 p). intros x E. now rewrite E in H3.
Qed.

Lemma inv_use n (m : mbox A) : Inv n m -> forall p, match procs m p with
     | WaitGet | WaitPeek => queue m = []
     | WaitPut _ => (0 < n)%Z /\ Z.of_nat (length (queue m)) = n
     | _ => True end.
Proof.
  intros [H1 H2 H3 H4 H5] p. destruct (procs m p) eqn:E; auto; eauto.
Qed.

Lemma can_put_true n (m : mbox A) : max_size m = n -> can_put m = true ->
  (0 < n)%Z -> (Z.of_nat (length (queue m)) < n)%Z.
Proof.
  unfold can_put. intros -> . destruct (Z.leb_spec n 0); [lia|].
  intros H1 _. now apply Z.ltb_lt.
Qed.

Lemma can_put_false n (m : mbox A) : Inv n m -> can_put m = false ->
  (0 < n)%Z /\ Z.of_nat (length (queue m)) = n.
Proof.
  intros [H1 H2 _ _ _]. unfold can_put. rewrite H1.
  destruct (Z.leb_spec n 0); [easy|].
  intros H3%Z.ltb_ge. specialize (H2 ltac:(lia)). lia.
Qed.

(** Adding an item. *)
Lemma inv_push n (m : mbox A) x : Inv n m -> can_put m = true ->
  Inv n (set_write (set_queue m (queue m ++ [x]))).
Proof.
  intros HI Hc. pose proof (can_put_true n m (inv_max _ _ HI) Hc) as Hlt.
  apply inv_cases; cbn [max_size queue procs set_write set_queue].
  - apply (inv_max _ _ HI).
  - intros Hn. rewrite app_length. cbn [length]. specialize (Hlt Hn). lia.
  - intros p. pose proof (inv_use n m HI p) as Hu.
    destruct (procs m p); cbn [wake_write]; auto.
    destruct Hu as [Hn He]. specialize (Hlt Hn). lia.
Qed.

Lemma inv_pop n (m : mbox A) x q : Inv n m -> queue m = x :: q ->
  Inv n (set_read (set_queue m q)).
Proof.
  intros HI Hq.
  apply inv_cases; cbn [max_size queue procs set_read set_queue].
  - apply (inv_max _ _ HI).
  - intros Hn. pose proof (inv_bound _ _ HI Hn) as Hb. rewrite Hq in Hb.
    cbn [length] in Hb. lia.
  - intros p. pose proof (inv_use n m HI p) as Hu.
    destruct (procs m p); cbn [wake_read]; auto; congruence.
Qed.

Lemma inv_set_proc n (m : mbox A) p s : Inv n m ->
  match s with
     | WaitGet | WaitPeek => queue m = []
     | WaitPut _ => (0 < n)%Z /\ Z.of_nat (length (queue m)) = n
     | _ => True end ->
  Inv n (set_proc m p s).
Proof.
  intros HI Hs. apply inv_cases; cbn [max_size queue procs set_proc].
  - apply (inv_max _ _ HI).
  - apply (inv_bound _ _ HI).
  - intros p'. destruct (upd_cases (procs m) p s p') as [[-> E]|[Hne E]]; rewrite E; auto.
    apply (inv_use n m HI).
Qed.

Lemma inv_clear_read n (m : mbox A) : Inv n m -> Inv n (clear_read m).
Proof. intros [H1 H2 H3 H4 H5]. split; auto. Qed.
Lemma inv_clear_write n (m : mbox A) : Inv n m -> Inv n (clear_write m).
Proof. intros [H1 H2 H3 H4 H5]. split; auto. Qed.

(** What one step from [m] must satisfy. [pend0]: what process [p0] still has
    pending in [m]. *)
Definition StepOk (p0 : nat) (n : Z) (q0 pend0 : list A) (r : mbox A * list (mout A)) : Prop :=
  Inv n (fst r) /\
  q0 ++ accepted (snd r) = delivered (snd r) ++ queue (fst r) /\
  pend0 ++ offered_by p0 (snd r) = resolved_by p0 (snd r) ++ pending (procs (fst r) p0) /\
  Forall (fun o => match o with OSpin _ | ORaise _ => False | _ => True end) (snd r).

Lemma pending_set_proc (m : mbox A) p s p0 :
  pending (procs (set_proc m p s) p0) =
  if Nat.eqb p0 p then pending s else pending (procs m p0).
Proof. cbn [procs set_proc]. unfold upd. now destruct (Nat.eqb p0 p). Qed.

Lemma put_loop_ok p0 n m p x :
  Inv n m ->
  StepOk p0 n (queue m) (if Nat.eqb p0 p then [x] else pending (procs m p0)) (put_loop m p x).
Proof.
  intros HI. unfold put_loop. destruct (can_put m) eqn:Hc.
  - unfold put_tail. split; [|split; [|split]]; cbn [fst snd].
    + apply inv_set_proc; [now apply inv_push|exact I].
    + reflexivity.
    + rewrite pending_set_proc. cbn [procs set_write set_queue].
      rewrite wake_write_pending. cbn -[Nat.eqb].
      rewrite (Nat.eqb_sym p p0). destruct (Nat.eqb p0 p); cbn; now rewrite ?app_nil_r.
    + repeat constructor.
  - cbn [read_flag clear_read]. split; [|split; [|split]]; cbn [fst snd].
    + apply inv_set_proc; [now apply inv_clear_read|].
      cbn [queue clear_read]. eapply can_put_false; eauto.
    + cbn. now rewrite app_nil_r.
    + rewrite pending_set_proc. cbn. rewrite app_nil_r. reflexivity.
    + constructor.
Qed.

Lemma get_loop_ok p0 n m p :
  Inv n m ->
  StepOk p0 n (queue m) (if Nat.eqb p0 p then [] else pending (procs m p0)) (get_loop m p).
Proof.
  intros HI. unfold get_loop. destruct (can_get m) eqn:Hc.
  - unfold get_tail. apply can_get_iff in Hc. destruct (queue m) as [|x q] eqn:Hq; [easy|].
    split; [|split; [|split]]; cbn [fst snd].
    + apply inv_set_proc; [|exact I]. now apply (inv_pop n m x).
    + cbn. now rewrite app_nil_r.
    + rewrite pending_set_proc. cbn [procs set_read set_queue]. rewrite wake_read_pending.
      cbn -[Nat.eqb]. rewrite app_nil_r. now destruct (Nat.eqb p0 p).
    + repeat constructor.
  - cbn [write_flag clear_write]. apply can_get_false in Hc.
    split; [|split; [|split]]; cbn [fst snd].
    + apply inv_set_proc; [now apply inv_clear_write|exact Hc].
    + cbn. now rewrite app_nil_r.
    + rewrite pending_set_proc. cbn. now rewrite app_nil_r.
    + constructor.
Qed.

Lemma peek_tail_ok p0 n m p :
  Inv n m ->
  StepOk p0 n (queue m) (if Nat.eqb p0 p then [] else pending (procs m p0)) (peek_tail m p).
Proof.
  intros HI. unfold peek_tail. split; [|split; [|split]]; cbn [fst snd].
  - now apply inv_set_proc.
  - cbn. now rewrite app_nil_r.
  - rewrite pending_set_proc. cbn -[Nat.eqb]. now rewrite app_nil_r.
  - repeat constructor.
Qed.

Lemma peek_start_ok p0 n m p :
  Inv n m ->
  StepOk p0 n (queue m) (if Nat.eqb p0 p then [] else pending (procs m p0)) (peek_start m p).
Proof.
  intros HI. unfold peek_start. destruct (can_get m) eqn:Hc.
  - now apply peek_tail_ok.
  - cbn [write_flag clear_write]. apply can_get_false in Hc.
    split; [|split; [|split]]; cbn [fst snd].
    + apply inv_set_proc; [now apply inv_clear_write|exact Hc].
    + cbn. now rewrite app_nil_r.
    + rewrite pending_set_proc. cbn. now rewrite app_nil_r.
    + constructor.
Qed.

Lemma try_put_ok p0 n m p x : Inv n m -> 
  StepOk p0 n (queue m) (pending (procs m p0) ++ if Nat.eqb p0 p then [x] else []) (try_put m p x)
  \/ pending (procs m p) <> [].
Proof.
  intros HI. destruct (pending (procs m p)) eqn:Hp; [left|now right].
  unfold try_put. destruct (can_put m) eqn:Hc.
  - split; [|split; [|split]]; cbn [fst snd].
    + now apply inv_push.
    + reflexivity.
    + cbn [procs set_write set_queue]. rewrite wake_write_pending.
      cbn -[Nat.eqb]. rewrite (Nat.eqb_sym p p0).
      destruct (Nat.eqb_spec p0 p); cbn; rewrite ?app_nil_r; auto; subst; now rewrite Hp.
    + repeat constructor.
  - split; [|split; [|split]]; cbn [fst snd]; auto.
    + cbn. now rewrite app_nil_r.
    + cbn -[Nat.eqb]. rewrite (Nat.eqb_sym p p0).
      destruct (Nat.eqb_spec p0 p); cbn; rewrite ?app_nil_r; auto; subst; now rewrite Hp.
Qed.

Lemma try_get_ok p0 n m p : Inv n m ->
  StepOk p0 n (queue m) (pending (procs m p0)) (try_get m p).
Proof.
  intros HI. unfold try_get. destruct (can_get m) eqn:Hc.
  - apply can_get_iff in Hc. destruct (queue m) as [|x q] eqn:Hq; [easy|].
    split; [|split; [|split]]; cbn [fst snd].
    + now apply (inv_pop n m x).
    + cbn. now rewrite app_nil_r.
    + cbn [procs set_read set_queue]. rewrite wake_read_pending. cbn. now rewrite app_nil_r.
    + repeat constructor.
  - split; [|split; [|split]]; cbn [fst snd]; auto; cbn; rewrite ?app_nil_r; auto.
Qed.

Lemma try_peek_ok p0 n m p : Inv n m ->
  StepOk p0 n (queue m) (pending (procs m p0)) (try_peek m p).
Proof.
  intros HI. unfold try_peek. destruct (can_get m) eqn:Hc;
  split; [|split; [|split]| |split; [|split]]; cbn [fst snd]; auto; cbn; rewrite ?app_nil_r; auto.
Qed.

Lemma idle_ok p0 n m : Inv n m -> StepOk p0 n (queue m) (pending (procs m p0)) (m, []).
Proof. intros HI. split; [|split; [|split]]; cbn [fst snd]; auto; cbn; rewrite ?app_nil_r; auto. Qed.

Lemma stepok_offer p0 n q pend m' o p x :
  StepOk p0 n q (pend ++ if Nat.eqb p0 p then [x] else []) (m', o) ->
  StepOk p0 n q pend (m', OOffered p x :: o).
Proof.
  intros (H1 & H2 & H3 & H4). split; [|split; [|split]]; cbn [fst snd] in *; auto.
  cbn -[Nat.eqb]. rewrite (Nat.eqb_sym p p0). rewrite app_assoc. exact H3.
Qed.

Lemma mstep_ok p0 n m l : Inv n m ->
  StepOk p0 n (queue m) (pending (procs m p0)) (mstep m l).
Proof.
  intros HI. destruct l as [p op|p]; cbn [mstep].
  - destruct (procs m p) eqn:Hp; try (now apply idle_ok).
    assert (Hpend : (if Nat.eqb p0 p then [] else pending (procs m p0)) = pending (procs m p0)).
    { destruct (Nat.eqb_spec p0 p); auto. subst. now rewrite Hp. }
    destruct op as [x| | |x| |].
    + pose proof (put_loop_ok p0 n m p x HI) as H. destruct (put_loop m p x).
      apply stepok_offer. destruct (Nat.eqb_spec p0 p); rewrite ?app_nil_r; auto.
      subst. now rewrite Hp.
    + rewrite <- Hpend. now apply get_loop_ok.
    + rewrite <- Hpend. now apply peek_start_ok.
    + pose proof (try_put_ok p0 n m p x HI) as H. destruct (try_put m p x).
      apply stepok_offer. destruct H as [H|H]; auto. now rewrite Hp in H.
    + now apply try_get_ok.
    + now apply try_peek_ok.
  - destruct (procs m p) eqn:Hp; try (now apply idle_ok).
    + pose proof (put_loop_ok p0 n (clear_read m) p x (inv_clear_read _ _ HI)) as H.
      cbn [queue procs clear_read] in H. destruct (Nat.eqb_spec p0 p); auto.
      subst. rewrite Hp. exact H.
    + pose proof (get_loop_ok p0 n (clear_write m) p (inv_clear_write _ _ HI)) as H.
      cbn [queue procs clear_write] in H. destruct (Nat.eqb_spec p0 p); auto.
      subst. rewrite Hp. exact H.
    + pose proof (peek_tail_ok p0 n (clear_write m) p (inv_clear_write _ _ HI)) as H.
      cbn [queue procs clear_write] in H. destruct (Nat.eqb_spec p0 p); auto.
      subst. rewrite Hp. exact H.
Qed.

Lemma good_step p0 n m tr l : Good p0 n m tr ->
  Good p0 n (fst (mstep m l)) (tr ++ snd (mstep m l)).
Proof.
  intros (HI & Hf & Ho & Hs). destruct (mstep_ok p0 n m l HI) as (H1 & H2 & H3 & H4).
  split; [|split; [|split]]; auto.
  - rewrite accepted_app, delivered_app, Hf, <- !app_assoc. now rewrite H2.
  - rewrite offered_app, resolved_app, Ho, <- !app_assoc. now rewrite H3.
  - now apply Forall_app.
Qed.

Lemma good_init p0 n : Good p0 n (mb_init n) [].
Proof.
  split; [|split; [|split]]; cbn; auto.
  apply inv_cases; cbn; auto. lia.
Qed.

Lemma good_run p0 n ls : Good p0 n (fst (mrun n ls)) (snd (@mrun A n ls)).
Proof.
  unfold mrun.
  apply (run_machine_inv mstep (Good p0 n) (good_step p0 n) ls (mb_init n) [] (good_init p0 n)).
Qed.

Lemma mbox_fifo n ls : accepted (snd (@mrun A n ls)) = delivered (snd (mrun n ls)) ++ queue (fst (mrun n ls)).
Proof. now destruct (good_run 0 n ls) as (_ & H & _). Qed.

Lemma each_put_once n ls p :
  offered_by p (snd (@mrun A n ls)) =
  resolved_by p (snd (mrun n ls)) ++ pending (procs (fst (mrun n ls)) p).
Proof. now destruct (good_run p n ls) as (_ & _ & H & _). Qed.

Lemma no_spin_no_raise n ls o : In o (snd (@mrun A n ls)) ->
  (forall p, o <> OSpin p) /\ (forall p, o <> ORaise p).
Proof.
  destruct (good_run 0 n ls) as (_ & _ & _ & H). rewrite Forall_forall in H.
  intros Hi. specialize (H o Hi). destruct o; split; intros p; congruence.
Qed.

Lemma bounded n ls : (0 < n)%Z -> (Z.of_nat (length (queue (fst (@mrun A n ls)))) <= n)%Z.
Proof. destruct (good_run 0 n ls) as (H & _). apply (inv_bound _ _ H). Qed.

Lemma no_lost_reader n ls p :
  sleeping_reader (procs (fst (@mrun A n ls)) p) -> queue (fst (mrun n ls)) = [].
Proof.
  destruct (good_run 0 n ls) as (H & _). intros [E|E].
  - eapply inv_get; eauto.
  - eapply inv_peek; eauto.
Qed.

Lemma no_lost_writer n ls p :
  sleeping_writer (procs (fst (@mrun A n ls)) p) ->
  (0 < n)%Z /\ Z.of_nat (length (queue (fst (mrun n ls)))) = n.
Proof.
  destruct (good_run 0 n ls) as (H & _). intros [x E]. eapply inv_put; eauto.
Qed.

Lemma woken_get_completes (m : mbox A) p x q :
  procs m p = WokenGet -> queue m = x :: q ->
  let r := mstep m (Resume p) in
  snd r = [ODelivered p x] /\ queue (fst r) = q /\ procs (fst r) p = Idle.
Proof.
  intros Hp Hq. cbn [mstep]. rewrite Hp. unfold get_loop, get_tail.
  assert (can_get (clear_write m) = true) as -> by (apply can_get_iff; cbn; congruence).
  cbn [queue clear_write]. rewrite Hq. cbn. repeat split. apply upd_eq.
Qed.

Lemma woken_put_completes (m : mbox A) p x :
  procs m p = WokenPut x -> can_put m = true ->
  let r := mstep m (Resume p) in
  snd r = [OAccepted p x] /\ queue (fst r) = queue m ++ [x] /\ procs (fst r) p = Idle.
Proof.
  intros Hp Hc. cbn [mstep]. rewrite Hp. unfold put_loop, put_tail.
  assert (can_put (clear_read m) = true) as -> by exact Hc.
  cbn. repeat split. apply upd_eq.
Qed.

(** ** peek *)
Lemma peeked_is_head (m : mbox A) l p r :
  In (OPeeked p r) (snd (mstep m l)) ->
  r = hd_error (queue m) /\ queue (fst (mstep m l)) = queue m.
Proof.
  destruct l as [p' op|p']; cbn [mstep]; destruct (procs m p') eqn:Hp; cbn [snd fst]; try easy.
  - destruct op; unfold put_loop, get_loop, peek_start, put_tail, get_tail,
      peek_tail, try_put, try_get, try_peek; cbn [read_flag clear_read write_flag clear_write].
    + destruct (can_put m); cbn; intros H; repeat destruct H as [H|H]; easy.
    + destruct (can_get m); [destruct (queue m)|]; cbn; intros H; repeat destruct H as [H|H]; easy.
    + destruct (can_get m); cbn; intros H; repeat destruct H as [H|H]; try easy.
      now injection H.
    + destruct (can_put m); cbn; intros H; repeat destruct H as [H|H]; easy.
    + destruct (can_get m); [destruct (queue m)|]; cbn; intros H; repeat destruct H as [H|H]; easy.
    + destruct (can_get m); cbn; intros H; repeat destruct H as [H|H]; try easy.
      now injection H.
  - unfold put_loop, put_tail; cbn [read_flag clear_read].
    destruct (can_put _); cbn; intros H; repeat destruct H as [H|H]; easy.
  - unfold get_loop, get_tail; cbn [write_flag clear_write].
    destruct (can_get _); [cbn [queue clear_write]; destruct (queue m)|]; cbn;
      intros H; repeat destruct H as [H|H]; easy.
  - unfold peek_tail; cbn. intros H; repeat destruct H as [H|H]; try easy. now injection H.
Qed.

(** One process does all the gets and peeks: a woken peek finds an item. *)
Definition PInv (p0 : nat) (m : mbox A) (tr : list (mout A)) : Prop :=
  (forall p, (procs m p = WaitGet \/ procs m p = WokenGet \/ procs m p = WaitPeek
              \/ procs m p = WokenPeek) -> p = p0) /\
  (procs m p0 = WokenPeek -> queue m <> []) /\
  (forall p, ~ In (OPeeked p None) tr).

Lemma pinv_step p0 m tr l :
  may_remove p0 l /\ only_peeked_by p0 l -> PInv p0 m tr ->
  PInv p0 (fst (mstep m l)) (tr ++ snd (mstep m l)).
Proof.
  intros [Hr Hk] (H1 & H2 & H3).
  assert (Hww : forall s : pstate A, wake_write s = WaitGet -> False).
  { now destruct s. }
  assert (Hww2 : forall s : pstate A, wake_write s = WaitPeek -> False).
  { now destruct s. }
  assert (Hww3 : forall s : pstate A, wake_write s = WokenGet -> s = WaitGet \/ s = WokenGet).
  { destruct s; cbn; auto; discriminate. }
  assert (Hww4 : forall s : pstate A, wake_write s = WokenPeek -> s = WaitPeek \/ s = WokenPeek).
  { destruct s; cbn; auto; discriminate. }
  assert (Hrr : forall s : pstate A, wake_read s = WaitGet \/ wake_read s = WokenGet \/ wake_read s = WaitPeek \/ wake_read s = WokenPeek -> wake_read s = s).
  { destruct s; cbn; auto; intuition discriminate. }
  assert (Hpush : forall x, PInv p0 (set_write (set_queue m (queue m ++ [x]))) tr).
  { intros x. split; [|split]; cbn.
    - intros p [E|[E|[E|E]]].
      + now apply Hww in E.
      + apply Hww3 in E. apply H1. tauto.
      + now apply Hww2 in E.
      + apply Hww4 in E. apply H1. tauto.
    - intros _. destruct (queue m); easy.
    - auto. }
  assert (Hidle : forall m', PInv p0 m' tr -> forall p, PInv p0 (set_proc m' p Idle) tr).
  { intros m' (G1 & G2 & G3) p. split; [|split]; cbn; auto.
    - intros p' E. destruct (upd_cases (procs m') p Idle p') as [[-> F]|[Hne F]]; rewrite F in E.
      + intuition discriminate.
      + auto.
    - intros E. destruct (upd_cases (procs m') p Idle p0) as [[-> F]|[Hne F]]; rewrite F in E;
      [discriminate|auto]. }
  assert (Hout : forall m' o, PInv p0 m' tr -> (forall p, ~ In (OPeeked p None) o) ->
             PInv p0 m' (tr ++ o)).
  { intros m' o (G1 & G2 & G3) G4. split; [|split]; auto.
    intros p E. apply in_app_or in E. destruct E as [E|E]; [apply (G3 _ E)|apply (G4 _ E)]. }
  assert (Hcr : PInv p0 (clear_read m) tr) by (split; [|split]; auto).
  assert (Hcw : PInv p0 (clear_write m) tr) by (split; [|split]; auto).
  assert (Hput : forall m' p x, PInv p0 m' tr -> 
            PInv p0 (set_proc m' p (WaitPut x)) tr).
  { intros m' p x (G1 & G2 & G3). split; [|split]; cbn; auto.
    - intros p' E. destruct (upd_cases (procs m') p (WaitPut x) p') as [[-> F]|[Hne F]]; rewrite F in E.
      + intuition discriminate.
      + auto.
    - intros E. destruct (upd_cases (procs m') p (WaitPut x) p0) as [[-> F]|[Hne F]]; rewrite F in E;
      [discriminate|auto]. }
  assert (Hpop : forall x q, procs m p0 = Idle \/ procs m p0 = WokenGet -> queue m = x :: q ->
            PInv p0 (set_read (set_queue m q)) tr).
  { intros x q Hi Hq. split; [|split]; cbn.
    - intros p E. pose proof E as E'. apply Hrr in E'. rewrite E' in E. auto.
    - intros E. assert (E' : wake_read (procs m p0) = procs m p0) by (apply Hrr; auto).
      rewrite E' in E. destruct Hi; congruence.
    - auto. }
  assert (Hwait : forall m' s, PInv p0 m' tr -> s <> WokenPeek ->
            PInv p0 (set_proc m' p0 s) tr).
  { intros m' s (G1 & G2 & G3) Hs. split; [|split]; cbn; auto.
    - intros p' E. destruct (upd_cases (procs m') p0 s p') as [[-> F]|[Hne F]]; auto.
      rewrite F in E. auto.
    - rewrite upd_eq. congruence. }
  destruct l as [p op|p]; cbn [mstep]; destruct (procs m p) eqn:Hp; cbn [fst snd];
    try (rewrite app_nil_r; now split; [|split]).
  - destruct op as [x| | |x| |]; unfold put_loop, get_loop, peek_start, put_tail, get_tail,
      peek_tail, try_put, try_get, try_peek; cbn [read_flag clear_read write_flag clear_write].
    + destruct (can_put m) eqn:Hc; cbn [fst snd].
      * apply Hout; [apply Hidle; auto|]. cbn; intros ? H; repeat destruct H as [H|H]; easy.
      * apply Hout; [apply Hput; auto|]. cbn; intros ? H; repeat destruct H as [H|H]; easy.
    + cbn in Hr. subst p. destruct (can_get m) eqn:Hc.
      * destruct (queue m) as [|x q] eqn:Hq; cbn [fst snd].
        { apply can_get_iff in Hc. congruence. }
        apply Hout; [apply Hidle; eapply Hpop; eauto|].
        cbn; intros ? H; repeat destruct H as [H|H]; easy.
      * cbn [fst snd]. rewrite app_nil_r. apply Hwait; auto. congruence.
    + cbn in Hk. subst p. destruct (can_get m) eqn:Hc; cbn [fst snd].
      * apply Hout; [apply Hidle; now split; [|split]|].
        apply can_get_iff in Hc. destruct (queue m); [easy|].
        cbn; intros ? H; repeat destruct H as [H|H]; easy.
      * rewrite app_nil_r. apply Hwait; auto. congruence.
    + destruct (can_put m) eqn:Hc; cbn [fst snd].
      * apply Hout; auto. cbn; intros ? H; repeat destruct H as [H|H]; easy.
      * apply Hout; [now split; [|split]|]. cbn; intros ? H; repeat destruct H as [H|H]; easy.
    + cbn in Hr. subst p. destruct (can_get m) eqn:Hc.
      * destruct (queue m) as [|x q] eqn:Hq; cbn [fst snd].
        { apply can_get_iff in Hc. congruence. }
        apply Hout; [eapply Hpop; eauto|].
        cbn; intros ? H; repeat destruct H as [H|H]; easy.
      * cbn [fst snd]. apply Hout; [now split; [|split]|]. cbn; intros ? H; repeat destruct H as [H|H]; easy.
    + destruct (can_get m) eqn:Hc; cbn [fst snd].
      * apply Hout; [now split; [|split]|].
        apply can_get_iff in Hc. destruct (queue m); [easy|].
        cbn; intros ? H; repeat destruct H as [H|H]; easy.
      * apply Hout; [now split; [|split]|]. cbn; intros ? H; repeat destruct H as [H|H]; easy.
  - unfold put_loop, put_tail; cbn [read_flag clear_read].
    destruct (can_put _) eqn:Hc; cbn [fst snd].
    + apply Hout; [apply Hidle; exact (Hpush x)|]. cbn; intros ? H; repeat destruct H as [H|H]; easy.
    + apply Hout; [apply Hput; exact Hcr|]. cbn; intros ? H; repeat destruct H as [H|H]; easy.
  - assert (p = p0) by (apply H1; auto). subst p.
    unfold get_loop, get_tail; cbn [write_flag clear_write].
    destruct (can_get _) eqn:Hc; cbn [queue clear_write].
    + destruct (queue m) as [|x q] eqn:Hq; cbn [fst snd].
      { apply can_get_iff in Hc. cbn in Hc. congruence. }
      apply Hout; [|cbn; intros ? H; repeat destruct H as [H|H]; easy].
      apply Hidle. exact (Hpop x q (or_intror Hp) eq_refl).
    + cbn [fst snd]. rewrite app_nil_r. apply Hwait; [exact Hcw|congruence].
  - assert (p = p0) by (apply H1; auto). subst p.
    unfold peek_tail; cbn [fst snd queue clear_write].
    apply Hout; [apply Hidle; exact Hcw|].
    specialize (H2 Hp). destruct (queue m); [easy|].
    cbn; intros ? H; repeat destruct H as [H|H]; easy.
Qed.

Lemma peek_single_consumer n p0 ls :
  Forall (fun l => may_remove p0 l /\ only_peeked_by p0 l) ls ->
  forall p, ~ In (OPeeked p None) (snd (@mrun A n ls)).
Proof.
  intros Hls. unfold mrun.
  assert (H0 : PInv p0 (mb_init n) []).
  { split; [|split]; cbn; auto; intros; intuition discriminate. }
  destruct (run_machine_inv_ok mstep _ (PInv p0) (pinv_step p0) ls _ _ Hls H0) as (_ & _ & H).
  exact H.
Qed.

Lemma num_nonempty (m : mbox A) : num m = (if Nat.eqb (length (queue m)) 0 then 0 else 1)%Z.
Proof.
  unfold num, can_get. destruct (queue m); cbn; auto.
Qed.

Lemma num_bound_one ls : num (fst (@mrun A 1 ls)) = Z.of_nat (length (queue (fst (mrun 1 ls)))).
Proof.
  pose proof (bounded 1 ls ltac:(lia)) as H. rewrite num_nonempty.
  destruct (queue (fst (mrun 1 ls))) as [|x [|y q]]; cbn [length Nat.eqb] in *; try reflexivity. lia.
Qed.
End Proofs.
