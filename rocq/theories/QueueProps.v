(** Properties C08, C09, C69: UVMQueue. *)
From Coq Require Import ZArith List Bool Arith Lia.
From Verif Require Import Prelude PyList QueueModel QueueSpec QueueProofs.
Import ListNotations.
Open Scope Z_scope.

(** C08. A history of calls has exactly the results
    and final contents the abstract sequence prescribes. [seq_hist] is both met
    and, being deterministic, sufficient to determine the behaviour. *)
Theorem C08_queue_is_sequence :
  forall (A : Type) (calls : list (qop A)) (l l' : list A) (results : list (qres A)),
  seq_hist l calls l' results <-> qrun l calls = (l', results).
Proof. intros A calls l l' rs. exact (refines calls l l' rs). Qed.
Print Assumptions C08_queue_is_sequence.

Example C08_example : qrun []
  [QPushBack 5%nat; QPushFront 4%nat; QInsert 1 7%nat; QGetItem (-1); QGet 3; QSetItem (-3) 9%nat; QDelete 1;
   QPopBack; QPopFront; QInsert 0 3%nat; QPopFront; QPopBack; QSize]
  = ([], [RNone; RNone; RNone; RVal 5%nat; RDefault; RNone; RNone; RVal 5%nat; RVal 9%nat; RNone; RRaise;
          RRaise; RSize 0]).
Proof. vm_compute. reflexivity. Qed.

(** C09 *)
Theorem C09_find_with : forall (A : Type) (q : list A) (f : A -> bool),
  find_with q f = filter f q.
Proof. intros A q f. exact (find_loop_app f q []). Qed.
Print Assumptions C09_find_with.

Theorem C09_find_first_index : forall (A : Type) (q : list A) (f : A -> bool),
  (find_first_index q f = -1 /\ forall x, In x q -> f x = false) \/
  (exists n x, find_first_index q f = Z.of_nat n /\ nth_error q n = Some x /\ f x = true /\
     forall j y, (j < n)%nat -> nth_error q j = Some y -> f y = false).
Proof.
  intros A q f. destruct (first_index_spec f q 0) as [H|(H1 & (x & Hx & Hf) & H3)]; [lia|auto|].
  right. rewrite Z.sub_0_r in *. exists (Z.to_nat (find_first_index q f)), x.
  split; [unfold find_first_index; lia|]. auto.
Qed.
Print Assumptions C09_find_first_index.

Example C09_example :
  find_first_index [1;2;3;2]%nat (Nat.eqb 2) = 1 /\ find_first_index [1]%nat (Nat.eqb 2) = -1 /\
  find_with [1;2;3;2]%nat Nat.even = [2;2]%nat.
Proof. repeat split. Qed.

(** C69. A copy is not independent of its source: a push on the copy shows in
    the source. *)
Theorem C69_copy_limit : exists (h : list (hop nat)),
  contents (fst (hrun 2 h)) 0 = [7; 8]%nat /\ calls_on 0 h = [QPushBack 7%nat].
Proof.
  exists [HOp 0 (QPushBack 7%nat); HCopy 1 0; HOp 1 (QPushBack 8%nat)].
  split; reflexivity.
Qed.
Print Assumptions C69_copy_limit.

(** Without copies, every queue behaves as if it were alone, for every
    interleaving of calls on any number of queues. *)
Theorem C69_queues_independent :
  forall (A : Type) (n : nat) (h : list (hop A)) (q : nat),
  Forall (no_copy_below n) h -> (q < n)%nat ->
  contents (fst (hrun n h)) q = fst (qrun [] (calls_on q h)).
Proof. intros A. exact independent. Qed.
Print Assumptions C69_queues_independent.

(** After a copy the two queues stay equal, whatever is called on either or on
    others, until one of the two is emptied with delete() or copied into. *)
Definition keeps (d s : nat) {A : Type} (o : hop A) : Prop :=
  match o with HOp q (QDelete (-1)) => q <> d /\ q <> s | HOp _ _ => True | HCopy _ _ => False end.
Theorem C69_copy_shared : forall (A : Type) (n : nat) (h h2 : list (hop A)) (d s : nat),
  Forall (keeps d s) h2 ->
  contents (fst (hrun n (h ++ HCopy d s :: h2))) d = contents (fst (hrun n (h ++ HCopy d s :: h2))) s.
Proof.
  intros A n h h2 d s HF. unfold hrun. rewrite run_machine_app. destruct (run_machine hstep (heap0 n) h) as [hp o]. cbn [fst run_machine].
  assert (H0 : qref (fst (hstep hp (HCopy d s))) d = qref (fst (hstep hp (HCopy d s))) s).
  { cbn. unfold upd. destruct (Nat.eqb d d) eqn:E1; [|apply Nat.eqb_neq in E1; congruence]. now destruct (Nat.eqb s d). }
  destruct (hstep hp (HCopy d s)) as [h0 o0]. cbn [fst] in H0. revert h0 o o0 H0. induction HF as [|a h2 Ha HF IH]; intros h0 o o0 H0; cbn [run_machine fst].
  - unfold contents. now rewrite H0.
  - assert (H1 : qref (fst (hstep h0 a)) d = qref (fst (hstep h0 a)) s).
    { destruct a as [q c|]; [|destruct Ha]. cbn [hstep]. destruct (qstep (store h0 (qref h0 q)) c) as [l' r].
      assert (HQ : (exists p, c = QDelete p /\ p = -1) \/ fst (hstep h0 (HOp q c)) = Heap (upd (store h0) (qref h0 q) (fst (qstep (store h0 (qref h0 q)) c))) (qref h0) (fresh h0)).
      { destruct c as [| | | | |p| | | | | | |]; try (right; cbn [hstep]; destruct (qstep _ _); reflexivity). destruct (Z.eq_dec p (-1)) as [->|Hp]; [left; eauto|right].
        cbn [hstep]. destruct (qstep (store h0 (qref h0 q)) (QDelete p)). destruct p as [|p|p]; try reflexivity. destruct p; try reflexivity. congruence. }
      destruct HQ as [(p & -> & ->)|HQ].
      - destruct Ha as [H1 H2]. cbn [fst qref]. now rewrite !upd_neq by congruence.
      - cbn [hstep] in HQ. destruct (qstep (store h0 (qref h0 q)) c) as [l1 r1]. destruct c as [| | | | |p| | | | | | |]; try exact H0.
        destruct p as [|p|p]; try exact H0. destruct p; try exact H0. destruct Ha as [H1 H2]. cbn [fst qref]. now rewrite !upd_neq by congruence. }
    destruct (hstep h0 a) as [h1 o1]. cbn [fst] in H1. specialize (IH h1 o (o0 ++ o1) H1). destruct (run_machine hstep h1 h2). exact IH.
Qed.
Print Assumptions C69_copy_shared.

(** And a copy has the contents of its source at the time of the copy. *)
Theorem C69_copy_equal : forall (A : Type) (h : heap A) (d s : nat),
  contents (fst (hstep h (HCopy d s))) d = contents h s.
Proof. intros A h d s. unfold contents. cbn. now rewrite upd_eq. Qed.
Print Assumptions C69_copy_equal.

Example C69_example :
  let h := [HOp 0 (QPushBack 7%nat); HOp 1 (QPushBack 8%nat); HOp 0 (QDelete (-1)); HOp 0 (QPushBack 5%nat)] in
  Forall (no_copy_below 2) h /\ contents (fst (hrun 2 h)) 0 = [5]%nat /\ contents (fst (hrun 2 h)) 1 = [8]%nat.
Proof. vm_compute. repeat split; repeat constructor. Qed.
