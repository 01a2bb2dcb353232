From Coq Require Import ZArith List Bool Arith Lia.
From Verif Require Import Prelude BusModel BusSpec BusProofs.
Import ListNotations.
Local Open Scope nat_scope.

(** The state and what was seen after a history. *)
Definition bafter (v : bool) (ls : list blab) : bus := fst (run_machine (bstep v) bus0 ls).
Definition btrace (v : bool) (ls : list blab) : list bout := snd (run_machine (bstep v) bus0 ls).

(** ** C163 *)

(** The sequence made for an access without parent is known to the bus sequencer from the first
    transfer on, and for ever unless the access is a read that returns. *)
Theorem C163_registered : forall v ls n, In (Dflt n) (regs (bafter v ls)) <->
  (exists p r k, In (Began p r k (Dflt n)) (btrace v ls)) /\
  (forall p r ok, ~ In (Done p r Rd (Dflt n) ok) (btrace v ls)).
Proof. intros v ls n. apply (bi_reg _ _ (binv_run v ls)). Qed.
Print Assumptions C163_registered.

(** Every access without parent has a sequence of its own. *)
Theorem C163_own : forall v ls p r k p' r' k' i j n,
  nth_error (btrace v ls) i = Some (Began p r k (Dflt n)) -> nth_error (btrace v ls) j = Some (Began p' r' k' (Dflt n)) -> i = j.
Proof.
  intros v ls p r k p' r' k' i j n Hi Hj. unfold btrace in *.
  assert (G : forall ls s tr, binv s tr -> (forall i j p r k p' r' k', nth_error tr i = Some (Began p r k (Dflt n)) ->
      nth_error tr j = Some (Began p' r' k' (Dflt n)) -> i = j) ->
    forall i j p r k p' r' k', nth_error (tr ++ snd (run_machine (bstep v) s ls)) i = Some (Began p r k (Dflt n)) ->
      nth_error (tr ++ snd (run_machine (bstep v) s ls)) j = Some (Began p' r' k' (Dflt n)) -> i = j).
  { clear. induction ls as [|l ls IH]; intros s tr B U i j p r k p' r' k' Hi Hj; cbn [run_machine] in *.
    - cbn [snd] in *. rewrite app_nil_r in *. eauto.
    - pose proof (binv_step v s tr l B) as B1. pose proof (began_step v s l n) as H.
      destruct (bstep v s l) as [s1 o1]. cbn [fst snd] in *. specialize (IH s1 (tr ++ o1) B1).
      destruct (run_machine (bstep v) s1 ls) as [s2 o2]. cbn [snd] in *. rewrite app_assoc in Hi, Hj.
      refine (IH _ i j p r k p' r' k' Hi Hj). clear Hi Hj IH i j p r k p' r' k'. intros i j p r k p' r' k' Hi Hj.
      assert (Old : forall x, nth_error (tr ++ o1) x = nth_error tr x \/ List.length tr <= x).
      { intros x. destruct (Nat.lt_ge_cases x (List.length tr)); [left; now apply nth_error_app1|auto]. }
      destruct (Old i) as [Oi|Oi], (Old j) as [Oj|Oj].
      + rewrite Oi in Hi. rewrite Oj in Hj. eauto.
      + rewrite Oi in Hi. rewrite nth_error_app2 in Hj by auto. apply nth_error_In in Hi. apply (bi_fresh _ _ B) in Hi.
        destruct H as [H|(p0 & r0 & k0 & H & E)]; [apply nth_error_In in Hj; now apply H in Hj|]. lia.
      + rewrite Oj in Hj. rewrite nth_error_app2 in Hi by auto. apply nth_error_In in Hj. apply (bi_fresh _ _ B) in Hj.
        destruct H as [H|(p0 & r0 & k0 & H & E)]; [apply nth_error_In in Hi; now apply H in Hi|]. lia.
      + rewrite nth_error_app2 in Hi by auto. rewrite nth_error_app2 in Hj by auto.
        destruct H as [H|(p0 & r0 & k0 & H & E)]; [apply nth_error_In in Hi; now apply H in Hi|]. subst o1.
        destruct (i - List.length tr) as [|[|x]] eqn:Ei, (j - List.length tr) as [|[|y]] eqn:Ej; try discriminate; lia. }
  apply (G ls bus0 [] binv0) with (p := p) (r := r) (k := k) (p' := p') (r' := r') (k' := k'); auto.
  intros i0 j0 * X. destruct i0; discriminate.
Qed.
Print Assumptions C163_own.

(** A write by a process without parent, and the same as a read. *)
Example C163_example :
  let h k := [Call 1 5 k None 1; Xfer 1 true false; Xfer 1 true false; Call 1 5 k (Some 3) 0; Xfer 1 true false] in
  btrace false (h Wr) = [Began 1 5 Wr (Dflt 0); Moved 1 5 (Dflt 0) true false; Moved 1 5 (Dflt 0) true false; Done 1 5 Wr (Dflt 0) true;
                         Began 1 5 Wr (User 3); Moved 1 5 (User 3) true false; Done 1 5 Wr (User 3) true] /\
  regs (bafter false (h Wr)) = [Dflt 0; User 3] /\ regs (bafter false (h Rd)) = [User 3] /\
  regs (bafter false (h Rd ++ [End 3])) = [].
Proof. repeat split; reflexivity. Qed.

(** ** C164 *)

(** With an adapter that provides responses no access ever returns; each makes at most one
    transfer; and a register can be accessed once, until it is reset. *)
Theorem C164_never_returns : forall ls p r k q ok, ~ In (Done p r k q ok) (btrace true ls).
Proof.
  intros ls p r k q ok. unfold btrace. pose proof (provides_run ls r bus0) as H.
  destruct (run_machine (bstep true) bus0 ls). apply H.
Qed.
Print Assumptions C164_never_returns.
Theorem C164_once : forall ls r, count (begins r) (btrace true ls) <= 1 + count (resets r) ls.
Proof.
  intros ls r. unfold btrace. pose proof (provides_run ls r bus0) as H.
  destruct (run_machine (bstep true) bus0 ls). cbn [free bus0 b2n snd] in *. lia.
Qed.
Print Assumptions C164_once.
Theorem C164_one_transfer : forall ls p, count (moves p) (btrace true ls) <= count (starts p) (btrace true ls).
Proof.
  intros ls p. unfold btrace. pose proof (single_run ls p bus0) as H.
  destruct (run_machine (bstep true) bus0 ls). cbn [proc bus0 busy snd] in *. lia.
Qed.
Print Assumptions C164_one_transfer.
(** If the driver sends no responses it does not even raise. *)
Theorem C164_hangs : forall v ls, Forall mute ls -> forall p r k q, ~ In (Raised p r k q) (btrace v ls).
Proof. intros v ls M. apply mute_run; auto. Qed.
Print Assumptions C164_hangs.
(** With a response in the queue of its sequence it raises. *)
Theorem C164_raises : forall ls p a ok, proc (bafter true ls) p = Bus a -> In (aseq a) (regs (bafter true ls)) ->
  rdepth (bafter true ls) (aseq a) <> 0%Z -> (-1 <= rdepth (bafter true ls) (aseq a))%Z ->
  In (Raised p (ar a) (ak a) (aseq a)) (snd (bstep true (bafter true ls) (Xfer p ok true))).
Proof.
  intros ls p a ok E R D0 D1. set (s := bafter true ls) in *.
  destruct (xfer_split true s p a ok true E) as (s1 & o1 & -> & Ed). cbn [snd]. right. apply in_app_iff. right.
  unfold next. assert (Q : rq s1 (aseq a) <> 0).
  { unfold deliver in Ed. rewrite (in_existsb _ _ R) in Ed.
    destruct (Z.eqb_spec (rdepth s (aseq a)) (-1)), (Z.ltb_spec (Z.of_nat (rq s (aseq a))) (rdepth s (aseq a)));
      cbn [orb] in Ed; injection Ed as -> _; cbn [rq set_rq]; unfold updq; rewrite ?sq_eqb_refl; lia. }
  apply Nat.eqb_neq in Q. rewrite Q. now left.
Qed.
Print Assumptions C164_raises.

(** Each access that raises takes exactly one of the queued responses. *)
Theorem C164_taken : forall v ls q, Forall (fetches_not q) ls ->
  rq (bafter v ls) q + count (raises q) (btrace v ls) = count (queued q) (btrace v ls).
Proof.
  intros v ls q. unfold bafter, btrace.
  assert (CA : forall f (a b : list bout), count f (a ++ b) = count f a + count f b) by (intros; unfold count; now rewrite filter_app, app_length).
  assert (BG : forall s p r k o n, rq (fst (begin s p r k o n)) = rq s /\ count (raises q) (snd (begin s p r k o n)) = 0 /\ count (queued q) (snd (begin s p r k o n)) = 0).
  { intros s p r k o n. unfold begin, register. destruct o; cbn [fst snd]; destruct (seen _ _); auto. }
  assert (FN : forall s p a, rq s (aseq a) <> 0 -> rq (fst (fetch_none s p a)) q + count (raises q) (snd (fetch_none s p a)) = rq s q + count (queued q) (snd (fetch_none s p a))).
  { intros s p a H. unfold fetch_none, count. cbn [fst snd rq set_proc set_rq filter raises queued]. unfold updq.
    destruct (sq_eqb_spec (aseq a) q) as [<-|E]; [rewrite sq_eqb_refl; cbn; lia|].
    destruct (sq_eqb_spec q (aseq a)); [congruence|]. cbn. lia. }
  assert (DL : forall s q0, rq (fst (deliver s q0)) q = rq s q + count (queued q) (snd (deliver s q0)) /\ count (raises q) (snd (deliver s q0)) = 0).
  { intros s q0. unfold deliver. destruct (existsb _ _); [|cbn; split; [unfold count; cbn; lia|reflexivity]]. destruct (_ || _).
    - cbn [fst snd rq set_rq]. unfold updq, count. cbn [filter queued raises]. split; [|reflexivity].
      destruct (sq_eqb_spec q0 q) as [->|E]; [rewrite sq_eqb_refl; cbn; lia|].
      destruct (sq_eqb_spec q q0); [congruence|]. cbn. lia.
    - cbn [fst snd]. destruct (quiet s q0); unfold count; cbn; split; lia. }
  assert (H : forall ls s, Forall (fetches_not q) ls ->
    rq (fst (run_machine (bstep v) s ls)) q + count (raises q) (snd (run_machine (bstep v) s ls)) = rq s q + count (queued q) (snd (run_machine (bstep v) s ls))).
  { induction ls0 as [|l ls0 IH]; intros s F; [reflexivity|]. apply Forall_cons_iff in F as [Fl F]. cbn [run_machine].
    assert (H1 : rq (fst (bstep v s l)) q + count (raises q) (snd (bstep v s l)) = rq s q + count (queued q) (snd (bstep v s l))).
    { destruct l as [p r k o n|p|p ok rsp|p|q0|q0|n|r|q0 d|q0 b]; cbn [bstep]; try reflexivity.
      - destruct (proc s p); try reflexivity. destruct (free s r); [|reflexivity]. destruct (BG s p r k o n) as (-> & -> & ->). reflexivity.
      - destruct (proc s p) as [|r k o n| |]; try reflexivity. destruct (free s r); [|reflexivity]. destruct (BG s p r k o n) as (-> & -> & ->). reflexivity.
      - destruct (proc s p) as [| |a|]; try reflexivity.
        assert (N : forall s1, rq (fst (next v s1 p a ok)) q + count (raises q) (snd (next v s1 p a ok)) = rq s1 q + count (queued q) (snd (next v s1 p a ok))).
        { intros s1. unfold next. destruct v.
          - destruct (Nat.eqb_spec (rq s1 (aseq a)) 0); [reflexivity|now apply FN].
          - destruct (_ || _); [|reflexivity]. unfold finish. destruct (ak a); [reflexivity|]. destruct (atmp a); reflexivity. }
        destruct rsp.
        + specialize (DL s (aseq a)). destruct (deliver s (aseq a)) as [s1 o1]. cbn [fst snd] in DL. specialize (N s1). destruct (next v s1 p a ok) as [s2 o2].
          cbn [fst snd] in *. change (Moved p (ar a) (aseq a) ok true :: o1 ++ o2) with ([Moved p (ar a) (aseq a) ok true] ++ o1 ++ o2). rewrite !CA.
          change (count (raises q) [Moved p (ar a) (aseq a) ok true]) with 0. change (count (queued q) [Moved p (ar a) (aseq a) ok true]) with 0. lia.
        + specialize (N s). destruct (next v s p a ok) as [s2 o2]. exact N.
      - destruct (proc s p) as [| | |a]; try reflexivity. destruct (Nat.eqb_spec (rq s (aseq a)) 0); [reflexivity|now apply FN].
      - specialize (DL s q0). lia.
      - cbn [fst snd rq set_rq]. unfold updq. destruct (sq_eqb_spec q q0) as [<-|E]; [now destruct Fl|reflexivity]. }
    destruct (bstep v s l) as [s1 o1]. cbn [fst snd] in *. specialize (IH s1 F). destruct (run_machine (bstep v) s1 ls0) as [s2 o2]. cbn [fst snd] in *.
    rewrite !CA. lia. }
  intros F. specialize (H ls bus0 F). cbn [rq bus0] in H. lia.
Qed.
Print Assumptions C164_taken.
Example C164_example :
  let h := [Call 1 5 Wr None 1; Xfer 1 true true; Call 2 5 Rd None 0; Take 2; Call 1 6 Rd None 0; Xfer 1 true false; Wake 1; Put (Dflt 1);
            Wake 1; Reset 5; Take 2] in
  btrace true h = [Began 1 5 Wr (Dflt 0); Moved 1 5 (Dflt 0) true true; Queued (Dflt 0); Raised 1 5 Wr (Dflt 0);
                   Began 1 6 Rd (Dflt 1); Moved 1 6 (Dflt 1) true false; Queued (Dflt 1); Raised 1 6 Rd (Dflt 1); Began 2 5 Rd (Dflt 2)].
Proof. reflexivity. Qed.
Example C164_example2 : let ls := [Call 1 5 Wr None 1] in
  proc (bafter true ls) 1 = Bus (Acc 5 Wr (Dflt 0) true 1) /\ In (Dflt 0) (regs (bafter true ls)) /\ rdepth (bafter true ls) (Dflt 0) = 8%Z.
Proof. repeat split. now left. Qed.

(** ** C165 *)

(** With any other adapter, whatever other processes do, an access of n+1 bus words returns the
    first failure, or success after n+1 transfers. *)
Theorem C165_status : forall s p r k q n ls, proc s p = Idle -> free s r = true -> Forall (calls_not p) ls ->
  filter (ends p) (snd (run_machine (bstep false) s (Call p r k q n :: ls))) =
  match outcome n (answers p ls) with
  | None => []
  | Some ok => [Done p r k (match q with Some u => User u | None => Dflt (fresh s) end) ok]
  end.
Proof.
  intros s p r k q n ls E F C. cbn [run_machine bstep]. rewrite E, F.
  assert (B : exists t, begin s p r k q n = (fst (begin s p r k q n), [Began p r k (match q with Some u => User u | None => Dflt (fresh s) end)]) /\
    proc (fst (begin s p r k q n)) p = Bus (Acc r k (match q with Some u => User u | None => Dflt (fresh s) end) t n)).
  { unfold begin. destruct q as [u|]; cbn [fst set_proc proc]; eexists; (split; [reflexivity|apply upd_eq]). }
  destruct B as (t & -> & P). cbn [fst] in P. pose proof (outcome_run ls p C _ _ P) as H.
  destruct (run_machine (bstep false) (fst (begin s p r k q n)) ls) as [s2 o2]. cbn [snd] in *. cbn [app filter ends].
  exact H.
Qed.
Print Assumptions C165_status.

(** The responses stay in the queue of the sequence: the first eight, all later ones are
    reported as overflow. *)
Theorem C165_overflow : forall q ls, Forall (leaves_alone q) ls ->
  rq (bafter false ls) q = Nat.min 8 (count (answered q) (btrace false ls)) /\
  count (overflows q) (btrace false ls) = count (answered q) (btrace false ls) - 8.
Proof. intros q ls F. destruct (rinv_run q ls F) as [R1 R2 _ _ _ _]. auto. Qed.
Print Assumptions C165_overflow.

Definition ten : list blab := List.concat (repeat [Call 1 5 Rd (Some 3) 0; Xfer 1 true true] 10).
Example C165_example :
  let ls := [Call 1 5 Wr None 2; Xfer 1 true false; Call 2 6 Rd None 1; Xfer 2 true true; Xfer 1 false true; Xfer 2 true false] in
  filter (ends 1) (btrace false ls) = [Done 1 5 Wr (Dflt 0) false] /\ outcome 2 (answers 1 ls) = Some false /\
  filter (ends 2) (btrace false ls) = [Done 2 6 Rd (Dflt 1) true] /\ outcome 1 (answers 2 ls) = Some true /\
  Forall (leaves_alone (User 3)) ten /\ count (answered (User 3)) (btrace false ten) = 10 /\
  rq (bafter false ten) (User 3) = 8 /\ count (overflows (User 3)) (btrace false ten) = 2.
Proof.
  split; [reflexivity|]. split; [reflexivity|]. split; [reflexivity|]. split; [reflexivity|].
  split; [repeat constructor|]. split; [reflexivity|]. split; reflexivity.
Qed.
