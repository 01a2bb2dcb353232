(** Theorems: a response goes to the sequence and the run that sent the request; transaction ids. *)
From Coq Require Import ZArith List Bool Arith Lia.
From Verif Require Import Prelude IdsModel IdsSpec IdsProofs.
Import ListNotations.
Local Open Scope nat_scope.

(** *** C194: whom a response reaches *)
(** put_response on sequencer s is an error exactly for an item whose ids come from no item sent;
    otherwise the response goes to the sequence that sent the item through s, unless that has left s
    since, and in all other cases to nobody. *)
Theorem C194_exact h s x :
  (says h (Put s x) = [OFatal] <-> forall q u r, ~ from h x q u r)
  /\ (forall q, says h (Put s x) = [ODelivered q] <-> exists r, from h x q s r /\ ~ left_ h q s r)
  /\ (says h (Put s x) = [ODropped] <-> exists q u r, from h x q u r /\ (u <> s \/ left_ h q u r)).
Proof.
  destruct (sid (items (after h) x)) as [i|] eqn:E.
  - apply sid_some in E. destruct E as (q & u & r & F & _). pose proof (put_some h s x q u r F) as [D N].
    assert (DEC : (u = s /\ ~ left_ h q s r) \/ (u <> s \/ left_ h q s r)).
    { destruct (Nat.eq_dec u s) as [->|Nu]; [|tauto]. destruct (sid_from _ _ _ _ _ F) as (j & _ & T).
      pose proof (j_reg _ _ _ _ _ (i_J _ _ (after_inv h)) s j q) as R. destruct (regs (after h) s j) as [p|].
      - destruct (Nat.eq_dec p q) as [->|Np].
        + left. split; [reflexivity|]. destruct R as [R _]. destruct (R eq_refl) as (c & X & Y). pose proof (idof_inj _ _ _ _ X T) as [= ->]. exact Y.
        + right. right. apply left_dec; intros Z; destruct R as [_ R]; assert (Some p = Some q) by (apply R; exists r; auto); congruence.
      - right. right. apply left_dec. intros Z. destruct R as [_ R]. assert (None = Some q) by (apply R; exists r; auto). congruence. }
    split; [|split].
    + split; [|intros X; exfalso; eapply X, F]. destruct DEC as [DEC|DEC]; [rewrite (D DEC)|rewrite (N DEC)]; discriminate.
    + intros p. destruct DEC as [DEC|DEC]; [rewrite (D DEC)|rewrite (N DEC)]; split.
      * intros [= <-]. destruct DEC as [-> L]. eauto.
      * intros (c & X & _). now pose proof (from_fun _ _ _ _ _ _ _ _ X F) as [= -> _ _].
      * discriminate.
      * intros (c & X & Y). pose proof (from_fun _ _ _ _ _ _ _ _ X F) as [= -> <- ->]. tauto.
    + destruct DEC as [DEC|DEC]; [rewrite (D DEC)|rewrite (N DEC)]; split.
      * discriminate.
      * intros (p & v & c & X & Y). pose proof (from_fun _ _ _ _ _ _ _ _ X F) as [= -> -> ->]. destruct DEC as [-> L]. tauto.
      * intros _. exists q, u, r. split; [exact F|]. destruct (Nat.eq_dec u s) as [->|Nu]; tauto.
      * reflexivity.
  - assert (Z : forall q u r, ~ from h x q u r).
    { intros q u r F. apply sid_from in F. destruct F as (j & F & _). congruence. }
    rewrite (put_none h s x Z). split; [tauto|]. split.
    + intros q. split; [discriminate|]. intros (r & X & _). exfalso. eapply Z, X.
    + split; [discriminate|]. intros (q & u & r & X & _). exfalso. eapply Z, X.
Qed.
Print Assumptions C194_exact.
(** As long as the sequence does not leave and the ids of the response stay, whatever else happens,
    and whatever ids other sequences and sequencers have, the response reaches the sender. *)
Theorem C194_reaches h t q s x y : grants h q <> 0 -> talks h q s (runs h q) -> ~ left_ h q s (runs h q) -> ~ In (Leave q) t ->
  (forall l, In l t -> touches y l = false) ->
  says (t ++ Info y x :: Send q s x :: h) (Put s y) = [ODelivered q].
Proof.
  intros G T L N Ty. apply C194_exact. exists (runs h q). split.
  - apply kept_from; [exact Ty|]. cbn. rewrite !Nat.eqb_refl. destruct (grants h q); [congruence|]. cbn. auto.
  - apply kept_left; [exact N|]. exact L.
Qed.
Print Assumptions C194_reaches.
(** After the sequence has left the sequencer, its responses reach nobody, in particular not a later
    run of the same sequence. *)
Theorem C194_late h t x q s r : from h x q s r -> left_ h q s r -> (forall l, In l t -> touches x l = false) -> forall u, says (t ++ h) (Put u x) = [ODropped].
Proof.
  intros F L N u. apply C194_exact. exists q, s, r. split; [now apply kept_from|]. right. now apply left_stays.
Qed.
Print Assumptions C194_late.
(** Two items have equal sequence ids exactly when the same sequence sent them through the same
    sequencer in the same run. *)
Theorem C194_ids h x y q s r q' s' r' : from h x q s r -> from h y q' s' r' -> (sid_of h x = sid_of h y <-> q = q' /\ s = s' /\ r = r').
Proof.
  intros A B. rewrite (sid_same _ _ _ _ _ _ _ _ _ A B). split; [intros [= -> -> ->]; auto|intros (-> & -> & ->); reflexivity].
Qed.
Print Assumptions C194_ids.
(** Sequences 1 and 2 on sequencer 0, sequence 3 on sequencer 7: items 11, 12, 13, responses 21, 22. *)
Definition h194 := rev [Start 1 (Some 0); Start 2 (Some 0); Start 3 (Some 7); Ask 1 0; Ask 2 0; Granted 2; Send 2 0 12; Granted 1; Send 1 0 11; Ask 3 7; Granted 3; Send 3 7 13; Info 21 11; Info 22 12].
Example C194_example :
  says h194 (Put 0 21) = [ODelivered 1] /\ says h194 (Put 0 22) = [ODelivered 2] /\ says h194 (Put 7 22) = [ODropped] /\ says h194 (Put 0 5) = [OFatal]
  /\ from h194 21 1 0 1 /\ ~ left_ h194 1 0 1
  /\ says (rev [Finish 1; Leave 1] ++ h194) (Put 0 21) = [ODropped]
  /\ says (rev [Finish 1; Leave 1; Start 1 (Some 0)] ++ h194) (Put 0 21) = [ODropped]
  /\ says (rev [Finish 1; Leave 1; Start 1 (Some 0)] ++ h194) (Put 0 22) = [ODelivered 2].
Proof. vm_compute. repeat split; auto; tauto. Qed.
(** A sequence leaves only the sequencer it was started on: one that sent an item through another
    sequencer is still given the response after its end. *)
Example C194_limit_other_sequencer : says (rev [Start 1 (Some 0); Ask 1 5; Granted 1; Send 1 5 9; Finish 1; Leave 1]) (Put 5 9) = [ODelivered 1].
Proof. reflexivity. Qed.
(** A sequence started again before its first start() call has come back loses the id of the new run. *)
Example C194_limit_restart : says (rev [Start 1 (Some 0); Finish 1; Start 1 (Some 0); Leave 1; Ask 1 0; Granted 1; Send 1 0 9]) (Put 0 9) = [ODropped].
Proof. reflexivity. Qed.

(** *** C195: transaction ids *)
(** The items a sequence sends first get 1, 2, 3, ..., over all its runs and sequencers. *)
Theorem C195_numbers h q n x : plain h -> nth_error (rev (first_sent h q)) n = Some x -> tid_of h x = Some (Z.of_nat (S n)).
Proof. intros P H. apply (t_num _ _ (tinv h P) q n x H). Qed.
Print Assumptions C195_numbers.
(** So two items of a sequence never share an id. *)
Theorem C195_distinct h q x y : plain h -> In x (first_sent h q) -> In y (first_sent h q) -> tid_of h x = tid_of h y -> x = y.
Proof.
  intros P A B E. apply in_rev, In_nth_error in A. apply in_rev, In_nth_error in B. destruct A as [n A], B as [m B].
  rewrite (C195_numbers h q n x P A), (C195_numbers h q m y P B) in E. assert (n = m) by (injection E; lia). subst. congruence.
Qed.
Print Assumptions C195_distinct.
(** Sending an item that has an id does not change it. *)
Theorem C195_kept h q s x t : tid_of h x = Some t -> tid_of (Send q s x :: h) x = Some t.
Proof. apply tid_kept. Qed.
Print Assumptions C195_kept.
(** Each grant serves for one send_request; without one it is a fatal error and no item is changed. A
    start of a sequence that runs is a fatal error; the other calls are none. *)
Theorem C195_grants h q s x :
  (says h (Send q s x) = if grants h q =? 0 then [OFatal] else []) /\
  (grants h q = 0 -> forall z, sid_of (Send q s x :: h) z = sid_of h z /\ tid_of (Send q s x :: h) z = tid_of h z) /\
  (forall u, says h (Start q u) = if running h q then [OFatal] else []) /\
  (forall l, match l with Send _ _ _ | Start _ _ | Put _ _ => True | _ => says h l = [] end).
Proof.
  pose proof (i_sem _ _ (after_inv h) q) as G. pose proof (i_busy _ _ (after_inv h) q) as B. unfold says, sid_of, tid_of. cbn [after step]. rewrite <- G, B.
  split; [|split; [|split]].
  - destruct (sem (seqs (after h) q)); [reflexivity|]. destruct (tid (items (after h) x)); destruct (get_id _ q s); reflexivity.
  - intros E z. rewrite E. auto.
  - intros u. now destruct (running h q).
  - intros [| | | |p|p| | |]; try exact I; try reflexivity; cbn [step].
    + now destruct (busy (seqs (after h) p)).
    + destruct (fin (seqs (after h) p)); [reflexivity|]. destruct (home (seqs (after h) p)); [|reflexivity]. now destruct (get_id _ p _).
Qed.
Print Assumptions C195_grants.
Definition h195 := rev [Start 1 (Some 0); Start 2 (Some 0); Ask 1 0; Granted 1; Send 1 0 11; Info 31 11; Ask 2 0; Granted 2; Send 2 0 12; Finish 1; Leave 1; Start 1 (Some 0); Ask 1 0; Granted 1; Send 1 0 13; Granted 1; Send 1 0 11].
Example C195_example : plain h195 /\ rev (first_sent h195 1) = [11; 13] /\ map (tid_of h195) [11; 13; 12; 31; 14] = [Some 1; Some 2; Some 1; Some 1; None]%Z.
Proof.
  split; [|vm_compute; auto]. split.
  - intros x t H. vm_compute in H. repeat (destruct H as [H|H]; [discriminate|]). exact H.
  - intros z x H. vm_compute in H. repeat (destruct H as [H|H]; [first [discriminate|injection H as <- <-; reflexivity]|]). destruct H.
Qed.
(** An id set by hand is not skipped. *)
Example C195_limit : map (tid_of (rev [SetTid 12 1; Start 1 (Some 0); Ask 1 0; Granted 1; Send 1 0 12; Ask 1 0; Granted 1; Send 1 0 11])) [11; 12] = [Some 1; Some 1]%Z.
Proof. reflexivity. Qed.
