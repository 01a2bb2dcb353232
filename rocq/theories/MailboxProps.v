(** Properties C01-C07: mailboxes and TLM FIFOs. *)
From Coq Require Import ZArith List Bool Arith Lia.
From Verif Require Import Prelude MailboxModel MailboxSpec MailboxProofs
  TlmFifoModel TlmFifoSpec TlmFifoProofs.
Import ListNotations.

(** C01. For every bound, every number of processes and every schedule: what
    was accepted is what was delivered, in the same order, followed by what is
    stored. *)
Theorem C01_mailbox_fifo : forall (A : Type) (n : Z) (sched : list (mlabel A)),
  let '(m, tr) := mrun n sched in
  accepted tr = delivered tr ++ queue m.
Proof.
  intros A n sched. pose proof (mbox_fifo n sched) as H.
  destruct (mrun n sched). exact H.
Qed.
Print Assumptions C01_mailbox_fifo.

(** C01, producer side: every item offered by a process is accepted (or
    refused by try_put) exactly once, in the order offered, or is still pending
    in its suspended put. *)
Theorem C01_each_put_once : forall (A : Type) (n : Z) (sched : list (mlabel A)) (p : nat),
  let '(m, tr) := mrun n sched in
  offered_by p tr = resolved_by p tr ++ pending (procs m p).
Proof.
  intros A n sched p. pose proof (each_put_once n sched p) as H.
  destruct (mrun n sched). exact H.
Qed.
Print Assumptions C01_each_put_once.

(** C01, no exception and no busy loop on any schedule. *)
Theorem C01_no_exception_no_spin : forall (A : Type) (n : Z) (sched : list (mlabel A)) (p : nat),
  ~ In (ORaise p) (snd (mrun n sched)) /\ ~ In (OSpin p) (snd (mrun n sched)).
Proof.
  intros A n sched p. split; intros H; destruct (no_spin_no_raise n sched _ H) as [H1 H2].
  - now apply (H2 p).
  - now apply (H1 p).
Qed.
Print Assumptions C01_no_exception_no_spin.

(** Three producers, bound 1, a getter waiting first; both getters race. *)
Definition sched1 : list (mlabel nat) :=
  [Call 10 Get; Call 11 Get; Call 0 (Put 7); Call 1 (Put 8); Call 2 (Put 9);
   Resume 11; Resume 2; Resume 1; Resume 10; Resume 1; Call 12 TryGet].
Example C01_example :
  accepted (snd (mrun 1 sched1)) = [7; 9; 8] /\
  delivered (snd (mrun 1 sched1)) = [7; 9; 8].
Proof. vm_compute. split; reflexivity. Qed.

(** C02. *)
Theorem C02_mailbox_bounded : forall (A : Type) (n : Z) (sched : list (mlabel A)),
  (0 < n)%Z -> (Z.of_nat (length (queue (fst (mrun n sched)))) <= n)%Z.
Proof. intros A. exact bounded. Qed.
Print Assumptions C02_mailbox_bounded.

Example C02_example : length (queue (fst (mrun 2
   [Call 0 (Put 7); Call 1 (Put 8); Call 2 (Put 9); Call 3 (TryPut 5)]))) = 2.
Proof. reflexivity. Qed.

(** C03. A process asleep in get/peek means there is nothing to read; one
    asleep in put means a bounded mailbox is full. *)
Theorem C03_no_lost_wakeup : forall (A : Type) (n : Z) (sched : list (mlabel A)) (p : nat),
  let m := fst (mrun n sched) in
  (sleeping_reader (procs m p) -> queue m = []) /\
  (sleeping_writer (procs m p) -> (0 < n)%Z /\ Z.of_nat (length (queue m)) = n).
Proof.
  intros A n sched p. split.
  - exact (no_lost_reader n sched p).
  - exact (no_lost_writer n sched p).
Qed.
Print Assumptions C03_no_lost_wakeup.

(** C03, the complement: a process woken in get, when resumed while an item is
    there, receives the head and returns. Similarly for put. *)
Theorem C03_woken_get_completes : forall (A : Type) (m : mbox A) (p : nat) (x : A) (q : list A),
  procs m p = WokenGet -> queue m = x :: q ->
  let r := mstep m (Resume p) in
  snd r = [ODelivered p x] /\ queue (fst r) = q /\ procs (fst r) p = Idle.
Proof. intros A. exact woken_get_completes. Qed.
Print Assumptions C03_woken_get_completes.

Theorem C03_woken_put_completes : forall (A : Type) (m : mbox A) (p : nat) (x : A),
  procs m p = WokenPut x ->
  (max_size m <= 0 \/ Z.of_nat (length (queue m)) < max_size m)%Z ->
  let r := mstep m (Resume p) in
  snd r = [OAccepted p x] /\ queue (fst r) = queue m ++ [x] /\ procs (fst r) p = Idle.
Proof.
  intros A m p x Hp Hc. apply woken_put_completes; auto.
  unfold can_put. destruct (Z.leb_spec (max_size m) 0); auto. apply Z.ltb_lt. lia.
Qed.
Print Assumptions C03_woken_put_completes.

Example C03_example :
  let m := fst (mrun 1 [Call 0 (Put 7); Call 1 (Put 8); Call 2 (Put 9)]) in
  sleeping_writer (procs m 1) /\ sleeping_writer (procs m 2) /\ queue m = [7].
Proof. vm_compute. repeat split; eauto. Qed.

(** What a call of a process that is in none does: it completes at once exactly if an item, or
    a place, is there; otherwise the blocking call suspends and the other one answers no. *)
Theorem C03_calls : forall (A : Type) (m : mbox A) (p : nat), procs m p = Idle ->
  (forall x q, queue m = x :: q ->
     snd (mstep m (Call p Get)) = [ODelivered p x] /\ queue (fst (mstep m (Call p Get))) = q /\ procs (fst (mstep m (Call p Get))) p = Idle /\
     snd (mstep m (Call p TryGet)) = [ODelivered p x] /\ queue (fst (mstep m (Call p TryGet))) = q /\
     snd (mstep m (Call p Peek)) = [OPeeked p (Some x)] /\ snd (mstep m (Call p TryPeek)) = [OPeeked p (Some x)]) /\
  (queue m = [] ->
     snd (mstep m (Call p Get)) = [] /\ procs (fst (mstep m (Call p Get))) p = WaitGet /\
     snd (mstep m (Call p Peek)) = [] /\ procs (fst (mstep m (Call p Peek))) p = WaitPeek /\
     mstep m (Call p TryGet) = (m, [OTryFail p]) /\ mstep m (Call p TryPeek) = (m, [OTryFail p])) /\
  (forall x, (max_size m <= 0 \/ Z.of_nat (length (queue m)) < max_size m)%Z ->
     snd (mstep m (Call p (Put x))) = [OOffered p x; OAccepted p x] /\ queue (fst (mstep m (Call p (Put x)))) = queue m ++ [x] /\ procs (fst (mstep m (Call p (Put x)))) p = Idle /\
     snd (mstep m (Call p (TryPut x))) = [OOffered p x; OAccepted p x] /\ queue (fst (mstep m (Call p (TryPut x)))) = queue m ++ [x]) /\
  (forall x, (0 < max_size m <= Z.of_nat (length (queue m)))%Z ->
     snd (mstep m (Call p (Put x))) = [OOffered p x] /\ queue (fst (mstep m (Call p (Put x)))) = queue m /\ procs (fst (mstep m (Call p (Put x)))) p = WaitPut x /\
     mstep m (Call p (TryPut x)) = (m, [OOffered p x; ORejected p x])).
Proof.
  intros A m p E. cbn [mstep]. rewrite E. unfold get_loop, peek_start, try_get, try_peek, put_loop, try_put.
  assert (G : can_get m = match queue m with [] => false | _ => true end) by (unfold can_get; destruct (queue m); reflexivity).
  split; [|split; [|split]].
  - intros x q Q. rewrite Q in G. rewrite G. unfold get_tail, peek_tail. rewrite Q. cbn. rewrite upd_eq. repeat split.
  - intros Q. rewrite Q in G. rewrite G. cbn. rewrite !upd_eq. repeat split.
  - intros x R. assert (can_put m = true) as -> by (unfold can_put; destruct (Z.leb_spec (max_size m) 0); auto; apply Z.ltb_lt; lia).
    unfold put_tail. cbn. rewrite upd_eq. repeat split.
  - intros x R. assert (can_put m = false) as -> by (unfold can_put; destruct (Z.leb_spec (max_size m) 0); [lia|]; apply Z.ltb_ge; lia).
    cbn. rewrite upd_eq. repeat split.
Qed.
Print Assumptions C03_calls.

(** C04. num() is not the number of items ... *)
Theorem C04_num_limit : exists sched : list (mlabel nat),
  let m := fst (mrun 0 sched) in
  num m <> Z.of_nat (length (queue m)).
Proof. exists [Call 0 (Put 7); Call 0 (Put 8)]. vm_compute. discriminate. Qed.
Print Assumptions C04_num_limit.

(** ... it only tells empty from non-empty (any bound), so it is the count for
    mailboxes of bound 1. *)
Theorem C04_num_empty : forall (A : Type) (m : mbox A),
  (num m = 0%Z <-> queue m = []) /\ (num m = 1%Z <-> queue m <> []).
Proof.
  intros A m. rewrite num_nonempty. destruct (queue m); cbn; split; split; easy.
Qed.
Print Assumptions C04_num_empty.

Theorem C04_num : forall (A : Type) (m : mbox A),
  num m = Z.min 1 (Z.of_nat (length (queue m))) /\
  (num m = Z.of_nat (length (queue m)) <-> (length (queue m) <= 1)%nat).
Proof.
  intros A m. rewrite num_nonempty. destruct (queue m) as [|x q]; cbn [length Nat.eqb]; lia.
Qed.
Print Assumptions C04_num.

Theorem C04_num_bound_one : forall (A : Type) (sched : list (mlabel A)),
  num (fst (mrun 1 sched)) = Z.of_nat (length (queue (fst (mrun 1 sched)))).
Proof. intros A. exact num_bound_one. Qed.
Print Assumptions C04_num_bound_one.

(** C05. Every peek that returns hands out the head at that moment (None when
    the mailbox is empty) and leaves the contents unchanged ... *)
Theorem C05_peek_head : forall (A : Type) (m : mbox A) (l : mlabel A) (p : nat) (r : option A),
  In (OPeeked p r) (snd (mstep m l)) ->
  r = hd_error (queue m) /\ queue (fst (mstep m l)) = queue m.
Proof. intros A. exact peeked_is_head. Qed.
Print Assumptions C05_peek_head.

(** ... but a blocking peek can return None instead of an item, when another
    process takes the item between the wake-up and the resume ... *)
Theorem C05_peek_none_limit : exists sched : list (mlabel nat),
  In (OPeeked 1 None) (snd (mrun 0 sched)).
Proof.
  exists [Call 1 Peek; Call 0 (Put 7); Call 2 Get; Resume 1].
  vm_compute. tauto.
Qed.
Print Assumptions C05_peek_none_limit.

(** ... and never does if a single process does all the gets and peeks, on any
    schedule of any number of producers. *)
Theorem C05_peek_single_consumer :
  forall (A : Type) (n : Z) (c : nat) (sched : list (mlabel A)),
  Forall (fun l => may_remove c l /\ only_peeked_by c l) sched ->
  forall p, ~ In (OPeeked p None) (snd (mrun n sched)).
Proof. intros A. exact peek_single_consumer. Qed.
Print Assumptions C05_peek_single_consumer.

Example C05_example :
  let s := [Call 1 Peek; Call 0 (Put 7); Call 2 (Put 8); Resume 1; Call 1 Get] in
  Forall (fun l => may_remove 1 l /\ only_peeked_by 1 l) s /\
  In (OPeeked 1 (Some 7)) (snd (mrun 0 s)).
Proof. vm_compute. split; [repeat constructor|tauto]. Qed.

(** C06. is_empty, can_peek are right for every size and state; can_get implies
    that try_get succeeds. *)
Theorem C06_is_empty : forall (A : Type) (f : fifo A),
  (is_empty f = true <-> queue (fm f) = []) /\
  (fcan_peek f = true <-> queue (fm f) <> []).
Proof. intros A f. split; [exact (is_empty_iff f)|exact (can_peek_iff f)]. Qed.
Print Assumptions C06_is_empty.

Theorem C06_can_get : forall (A : Type) (f : fifo A) (p : nat) (t : list A),
  fcan_get f = true -> snd (ftry_get f p t) = true.
Proof. intros A. exact can_get_sound. Qed.
Print Assumptions C06_can_get.
(** In every execution can_get() holds exactly if something is stored and no process is
    inside get(). *)
Theorem C06_can_get_exact : forall (A : Type) (n : Z) (sched : list (flabel A)),
  let f := fst (frun n sched) in
  fcan_get f = true <-> queue (fm f) <> [] /\ forall p, procs (fm f) p <> WaitGet /\ procs (fm f) p <> WokenGet.
Proof. intros A. exact fcan_get_reach. Qed.
Print Assumptions C06_can_get_exact.
(** So a get() in progress hides an item that try_get() would take ... *)
Example C06_can_get_hidden :
  let f := fst (frun 0 [FCall 1 FGet; FCall 0 (FPut 7)]) in
  fcan_get f = false /\ snd (ftry_get f 2 []) = true.
Proof. vm_compute. split; reflexivity. Qed.
(** ... and one that has ended does not. *)
Example C06_can_get_after :
  fcan_get (fst (frun 0 [FCall 1 FGet; FCall 0 (FPut 7); FCall 0 (FPut 8); FResume 1])) = true.
Proof. reflexivity. Qed.

(** is_full / can_put / used are wrong for sizes above one ... *)
Theorem C06_is_full_limit : exists sched : list (flabel nat),
  let f := fst (frun 2 sched) in
  Z.of_nat (length (queue (fm f))) = 2%Z /\ is_full f = false /\ fcan_put f = true /\
  used f = 1%Z /\ In (ORejected 0 9) (snd (try_put (fm f) 0 9)).
Proof.
  exists [FCall 0 (FPut 7); FCall 0 (FPut 8)]. vm_compute. repeat split; auto.
Qed.
Print Assumptions C06_is_full_limit.

(** ... and right for unbounded and one-place FIFOs, in every reachable state. *)
Theorem C06_is_full : forall (A : Type) (n : Z) (sched : list (flabel A)),
  n = 0%Z \/ n = 1%Z ->
  let f := fst (frun n sched) in
  is_full f = true <-> (n <> 0%Z /\ Z.of_nat (length (queue (fm f))) = n).
Proof. intros A. exact is_full_size01. Qed.
Print Assumptions C06_is_full.

Theorem C06_can_put : forall (A : Type) (n : Z) (sched : list (flabel A)) (x : A) (p : nat),
  n = 0%Z \/ n = 1%Z ->
  let f := fst (frun n sched) in
  fcan_put f = true <-> In (OAccepted p x) (snd (try_put (fm f) p x)).
Proof. intros A. exact can_put_size01. Qed.
Print Assumptions C06_can_put.

(** Larger ones: never full, whatever is stored. *)
Theorem C06_large : forall (A : Type) (n : Z) (sched : list (flabel A)),
  (2 <= n)%Z ->
  let f := fst (frun n sched) in
  is_full f = false /\ fcan_put f = true /\ used f = Z.min 1 (Z.of_nat (length (queue (fm f)))).
Proof. intros A. exact size_large. Qed.
Print Assumptions C06_large.

(** C01 for TLM FIFOs, including flush. *)
Theorem C01_tlm_fifo_order : forall (A : Type) (n : Z) (sched : list (flabel A)),
  let '(f, tr) := frun n sched in
  f_accepted tr = f_removed tr ++ queue (fm f).
Proof.
  intros A n sched. pose proof (fifo_order n sched) as H. destruct (frun n sched). exact H.
Qed.
Print Assumptions C01_tlm_fifo_order.

Theorem C07_flush_empties : forall (A : Type) (n : Z) (sched : list (flabel A)) (p : nat),
  procs (fm (fst (frun n sched))) p = Idle ->
  queue (fm (fst (fstep (fst (frun n sched)) (FCall p FFlush)))) = [].
Proof. intros A. exact flush_empties. Qed.
Print Assumptions C07_flush_empties.

(** C07. put_ap sees every accepted item exactly once, in order. *)
Theorem C07_put_ap : forall (A : Type) (n : Z) (sched : list (flabel A)),
  on_put_ap (snd (frun n sched)) = f_accepted (snd (frun n sched)).
Proof. intros A. exact put_ap_exact. Qed.
Print Assumptions C07_put_ap.

(** get_ap is wrong for flush (and for try_get with a non-empty list) ... *)
Theorem C07_get_ap_limit : exists sched : list (flabel nat),
  f_removed (snd (frun 0 sched)) = [7; 8] /\ on_get_ap (snd (frun 0 sched)) = [7; 7].
Proof.
  exists [FCall 0 (FPut 7); FCall 0 (FPut 8); FCall 0 FFlush]. vm_compute. split; reflexivity.
Qed.
Print Assumptions C07_get_ap_limit.

(** ... exact otherwise, and always right in number. *)
Theorem C07_get_ap : forall (A : Type) (n : Z) (sched : list (flabel A)),
  Forall plain_label sched ->
  on_get_ap (snd (frun n sched)) = f_removed (snd (frun n sched)).
Proof. intros A. exact get_ap_plain. Qed.
Print Assumptions C07_get_ap.

(** flush writes its first item once per item removed, try_get the head of the list it is
    given. *)
Theorem C07_flush_ap : forall (A : Type) (n : Z) (sched : list (flabel A)) (p : nat) (x : A) (q : list A),
  procs (fm (fst (frun n sched))) p = Idle -> queue (fm (fst (frun n sched))) = x :: q ->
  f_removed (snd (fstep (fst (frun n sched)) (FCall p FFlush))) = x :: q /\
  on_get_ap (snd (fstep (fst (frun n sched)) (FCall p FFlush))) = repeat x (S (length q)).
Proof. intros A. exact flush_ap. Qed.
Print Assumptions C07_flush_ap.

Theorem C07_try_get_ap : forall (A : Type) (f : fifo A) (p : nat) (x : A) (q t : list A),
  procs (fm f) p = Idle -> queue (fm f) = x :: q ->
  on_get_ap (snd (fstep f (FCall p (FTryGet t)))) = [hd x t] /\ f_removed (snd (fstep f (FCall p (FTryGet t)))) = [x].
Proof. intros A. exact try_get_ap. Qed.
Print Assumptions C07_try_get_ap.

Theorem C07_get_ap_count : forall (A : Type) (n : Z) (sched : list (flabel A)),
  length (on_get_ap (snd (frun n sched))) = length (f_removed (snd (frun n sched))).
Proof. intros A. exact get_ap_count. Qed.
Print Assumptions C07_get_ap_count.

Example C07_example :
  let s := [FCall 5 FGet; FCall 0 (FPut 7); FCall 0 (FTryPut 8); FResume 5; FCall 6 (FTryGet [])] in
  Forall plain_label s /\ on_get_ap (snd (frun 0 s)) = [7; 8].
Proof. vm_compute. split; [repeat constructor|reflexivity]. Qed.
