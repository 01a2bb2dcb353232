From Coq Require Import ZArith List Bool Arith Lia.
From Verif Require Import Prelude SeqrModel SeqrSpec SeqrProofs.
Import ListNotations.
Local Open Scope nat_scope.

(** The state and the observable events after a history of calls. *)
Definition after (anc : nat -> list nat) (ls : list lab) : sqr := fst (run_machine (step anc) sqr0 ls).
Definition trace (anc : nat -> list nat) (ls : list lab) : list out := snd (run_machine (step anc) sqr0 ls).

Definition no_locks (tr : list out) : Prop := forall r s, ~ In (OLockRequested r s) tr.
Lemma no_locks_b tr : forallb (fun o => match o with OLockRequested _ _ => false | _ => true end) tr = true -> no_locks tr.
Proof. rewrite forallb_forall. intros H r s Hin. specialize (H _ Hin). discriminate. Qed.
Definition fifo_mode (ls : list lab) : Prop := forall a, In (LArb a) ls -> a = 0.

(** Three sequences, 2 a child of 1. *)
Definition anc1 (s : nat) : list nat := if Nat.eqb s 2 then [1] else [].
Definition yes (_ : nat) := true.
(** One item through the handshake. *)
Definition one (r s : nat) (p : nat) : list lab :=
  [LNext yes 0; LGrant r; LSend s (Z.of_nat p) p; LItem; LDone None].

(** ** C50 *)

(** When every sequence asking is relevant, what has been chosen, followed by what is
    still pending, is what was requested, less what was withdrawn: requests are served
    in order, once, and none is lost. *)
Theorem C50_fifo : forall anc ls, Forall fifo_ok ls ->
  selections (trace anc ls) ++ pendings (trace anc ls)
  = filter (fun x => negb (existsb (Nat.eqb (fst x)) (withdrawals (trace anc ls)))) (requests (trace anc ls)).
Proof. intros anc ls H. exact (fifo_run anc ls H). Qed.
Print Assumptions C50_fifo.

(** With some sequences not relevant, the oldest relevant one is chosen. *)
Theorem C50_oldest_relevant : forall anc ls l rel rnd r s, fifo_mode ls -> asks l rel rnd ->
  In (OSelected r s) (snd (step anc (after anc ls) l)) ->
  exists b a, pendings (trace anc ls) = b ++ (r, s) :: a /\ rel s = true
    /\ forall x, In x b -> rel (snd x) = false.
Proof.
  intros anc ls l rel rnd r s HM HA H. unfold trace. rewrite <- (ai_pend _ _ (ainv_run anc ls)).
  eapply sel_first; eauto; [apply locks_run|now apply mode_run].
Qed.
Print Assumptions C50_oldest_relevant.

(** If a relevant request is pending, a driver that is not already holding one gets one. *)
Theorem C50_served : forall anc ls rel rnd r s, fifo_mode ls -> no_locks (trace anc ls) ->
  In (r, s) (pendings (trace anc ls)) -> rel s = true -> requested (after anc ls) = false ->
  (exists r' s', In (OSelected r' s') (snd (step anc (after anc ls) (LNext rel rnd)))) /\
  (exists r' s', In (OSelected r' s') (snd (step anc (after anc ls) (LPeek rel rnd)))).
Proof.
  intros anc ls rel rnd r s HM HL Hin HR HQ. unfold trace in Hin. rewrite <- (ai_pend _ _ (ainv_run anc ls)) in Hin.
  fold (after anc ls) in Hin. set (y := after anc ls) in *.
  apply in_reqs in Hin as (z & Hz & HK & <- & <-). cbn [core aq] in Hz.
  pose proof (nolock_run anc ls HL) as HQK. fold (after anc ls) in HQK. fold y in HQK.
  assert (HB : is_blocked anc y (r_seq z) = false) by (apply is_blocked_nil; apply locks_run).
  destruct (avail_some anc y rel (arbq y) 0 z Hz HK HB HR) as (k & Hk & _).
  assert (HC : exists i, choose anc y rel rnd = CSome i).
  { unfold choose. rewrite (lock_first_false y HQK). destruct (avail anc y rel 0 (arbq y)) as [|i l]; [destruct Hk|].
    replace (arb y) with 0 by (symmetry; now apply mode_run). cbn. eauto. }
  destruct HC as [i HC]. pose proof (choose_nth _ _ _ _ _ HC) as (q & Hq & _).
  cbn [step]. rewrite HQ. unfold try_select. rewrite HC. pose proof (select_out y i) as HO. rewrite Hq in HO.
  destruct (select y i) as [y1 o]. cbn [snd fst] in *. subst o.
  split; exists (r_id q), (r_seq q); [apply in_app_iff; right|]; now left.
Qed.
Print Assumptions C50_served.

(** In every history, with locks and any arbitration mode: a request is chosen at most
    once and granted at most once, to the sequence that made it, only if chosen, and
    never after it was withdrawn. *)
Theorem C50_once : forall anc ls,
  NoDup (map fst (requests (trace anc ls))) /\ NoDup (map fst (selections (trace anc ls)))
  /\ NoDup (map fst (grants (trace anc ls)))
  /\ incl (grants (trace anc ls)) (selections (trace anc ls))
  /\ incl (selections (trace anc ls)) (requests (trace anc ls))
  /\ (forall r s, In (r, s) (selections (trace anc ls)) -> ~ In r (withdrawals (trace anc ls))).
Proof.
  intros anc ls. destruct (ainv_run anc ls) as [P1 P2 P3 P4 P5 P6 P7 P8 P9 P10 P11 P12 P13 P14 P15].
  fold (trace anc ls) in *. repeat split; auto.
  - intros [r s] H. auto.
  - intros [r s] H. now apply P6.
  - intros r s H. now apply P6 in H.
Qed.
Print Assumptions C50_once.

(** A chosen request is granted as soon as the requesting process looks. *)
Theorem C50_grant_delivered : forall anc ls r s, In (r, s) (selections (trace anc ls)) ->
  ~ In r (map fst (grants (trace anc ls))) -> snd (step anc (after anc ls) (LGrant r)) = [OGranted r s].
Proof.
  intros anc ls r s HS HG. destruct (ainv_run anc ls) as [P1 P2 P3 P4 P5 P6 P7 P8 P9 P10 P11 P12 P13 P14 P15].
  fold (trace anc ls) in *. fold (after anc ls) in *.
  destruct (P6 _ _ HS) as (HR & _). pose proof (P14 r s HR HG) as HW. cbn [core aw] in HW.
  assert (HC : In r (completed (after anc ls))). { apply P15; auto. apply (in_map fst) in HS. exact HS. }
  cbn [step]. unfold granted. destruct (find _ _) as [[r' s']|] eqn:F.
  - apply find_some in F as [F1 F2]. cbn [fst] in F2. apply Nat.eqb_eq in F2. subst r'.
    apply in_existsb_nat in HC. rewrite HC. cbn [snd]. apply P11 in F1. now rewrite (fst_inj _ _ _ _ P4 HR F1).
  - exfalso. apply find_none with (x := (r, s)) in F; [|auto]. cbn [fst] in F. now rewrite Nat.eqb_refl in F.
Qed.
Print Assumptions C50_grant_delivered.

Example C50_example :
  let ls := [LStart 1; LStart 3; LRequest 3 false; LRequest 1 false; LRequest 3 false] ++ one 0 3 7 ++ one 1 1 8 in
  trace anc1 ls = [OCleared 1; OCleared 3; ORequested 0 3; ORequested 1 1; ORequested 2 3;
    OSelected 0 3; OGranted 0 3; OSent 3 (Item 2 7 7); OItem (Item 2 7 7); OTaken (Item 2 7 7);
    OSelected 1 1; OGranted 1 1; OSent 1 (Item 1 8 8); OItem (Item 1 8 8); OTaken (Item 1 8 8)]
  /\ Forall fifo_ok ls /\ no_locks (trace anc1 ls) /\ requested (after anc1 ls) = false
  /\ pendings (trace anc1 ls) = [(2, 3)]
  /\ snd (step anc1 (after anc1 (firstn 5 ls)) (LNext (Nat.eqb 1) 0)) = [OSelected 1 1].
Proof.
  split; [reflexivity|]. split; [|split; [|repeat split; reflexivity]].
  - repeat constructor.
  - apply no_locks_b. vm_compute. reflexivity.
Qed.

(** ** C51 *)

(** Whoever holds locks, the sequence chosen is a holder's descendant or the holder
    itself, for every lock held. *)
Theorem C51_not_blocked : forall anc y l r s, In (OSelected r s) (snd (step anc y l)) ->
  forall h, In h (locks y) -> h = s \/ In h (anc s).
Proof.
  intros anc y l r s H. apply sel_choose in H as (rel & rnd & i & q & _ & HC & HN & _ & <-).
  apply choose_nth in HC as (q' & HN' & _ & HB & _). rewrite HN in HN'. injection HN' as <-.
  now apply not_blocked_spec.
Qed.
Print Assumptions C51_not_blocked.

(** But no lock is ever held: *)
Theorem C51_no_lock_held : forall anc ls, locks (after anc ls) = [].
Proof. intros anc ls. apply locks_run. Qed.
Print Assumptions C51_no_lock_held.

(** a lock request that gets to the front makes every later attempt to choose raise, and
    nothing is ever chosen again unless a sequence with pending requests ends. *)
Theorem C51_stuck : forall anc y ls, lock_first y = true ->
  (forall r, ~ In (ORemoved r) (snd (run_machine (step anc) y ls))) ->
  (forall r s, ~ In (OSelected r s) (snd (run_machine (step anc) y ls)))
  /\ (forall rel rnd, requested (fst (run_machine (step anc) y ls)) = false ->
        snd (step anc (fst (run_machine (step anc) y ls)) (LPeek rel rnd)) = [OExn]).
Proof.
  intros anc y ls HL HN. destruct (lock_stuck anc ls y HL HN) as [H1 H2]. split; [auto|].
  intros rel rnd HR. cbn [step]. rewrite HR. unfold try_select, choose. rewrite H1. reflexivity.
Qed.
Print Assumptions C51_stuck.

Example C51_example :
  (* a holds a lock: its child 2 is chosen, 3, which asked first, is not *)
  snd (step anc1 (set_locks (after anc1 [LRequest 3 false; LRequest 2 false]) [1]) (LNext yes 0)) = [OSelected 1 2]
  (* a request with a lock leads to a stuck sequencer *)
  /\ lock_first (after anc1 [LRequest 1 true; LRequest 3 false]) = true
  /\ snd (run_machine (step anc1) (after anc1 [LRequest 1 true; LRequest 3 false]) [LNext yes 0; LNext yes 0; LTry yes 0])
     = [OExn; OExn; OExn].
Proof. repeat split; reflexivity. Qed.

(** ** C52 *)

(** The response queue holds what was stored and not fetched, in order. *)
Theorem C52_queue : forall anc ls s, respq (after anc ls) s = responses s (trace anc ls).
Proof. intros. apply resp_run. Qed.
Print Assumptions C52_queue.

(** A response with the id an item was sent with goes to the sequence that sent it, if
    to any: whether stored, dropped or given to the handler. *)
Theorem C52_routed : forall anc ls s x s' z, In (OSent s x) (trace anc ls) -> i_sid z = i_sid x ->
  In (OQueued s' z) (trace anc ls) \/ In (ODropped s' z) (trace anc ls) \/ In (OHandled s' z) (trace anc ls) ->
  s' = s.
Proof.
  intros anc ls s x s' z H1 HE H2. destruct (owner_run anc ls) as [own HO]. fold (trace anc ls) in HO.
  destruct (oi_tr _ _ _ HO _ (i_sid x) s H1) as [E1 _]; [split; auto|].
  assert (own (i_sid x) = s'); [|congruence].
  destruct H2 as [H2|[H2|H2]]; (destruct (oi_tr _ _ _ HO _ (i_sid x) s' H2) as [E2 _]; [split; auto|]; exact E2).
Qed.
Print Assumptions C52_routed.

(** While that sequence has not ended, it is stored, unless the sequence uses the
    response handler or its queue is full. *)
Theorem C52_delivered : forall anc ls s x z, ~ In (LExit s) ls -> In (OSent s x) (trace anc ls) ->
  i_sid z = i_sid x ->
  snd (step anc (after anc ls) (LPut z)) =
    if handler (after anc ls) s then [OHandled s z]
    else if (Z.eqb (depth (after anc ls) s) (-1)
             || (Z.of_nat (length (responses s (trace anc ls))) <? depth (after anc ls) s)%Z)%bool
    then [OQueued s z] else [ODropped s z].
Proof.
  intros anc ls s x z HN HS HE. destruct (live_run anc s ls HN) as [_ HL]. specialize (HL x HS).
  destruct (owner_run anc ls) as [own HO]. destruct (oi_reg _ _ _ HO _ _ HL) as [_ HP].
  cbn [step]. unfold put_response. rewrite HE. fold (after anc ls) in *.
  destruct (Z.eqb_spec (i_sid x) (-1)); [lia|]. rewrite HL. destruct (handler (after anc ls) s); [auto|].
  unfold put_base. rewrite C52_queue. destruct (_ || _)%bool; reflexivity.
Qed.
Print Assumptions C52_delivered.

(** What get_response returns: the oldest without an id, the first with the id given
    otherwise; everything else stays, in order. *)
Theorem C52_got : forall anc ls l p s x, In (OGot p s x) (snd (step anc (after anc ls) l)) ->
  exists t, asked p (ls ++ [l]) None = Some (s, t) /\
    took t (responses s (trace anc ls)) x (responses s (trace anc (ls ++ [l]))).
Proof.
  intros anc ls l p s x H. destruct (got_spec anc _ ls l p s x (ginv_run anc ls) H) as (t & HA & HT).
  exists t. split; [auto|]. rewrite <- !C52_queue. unfold after in *. rewrite run_machine_app. cbn [run_machine].
  destruct (step anc (fst (run_machine (step anc) sqr0 ls)) l) as [y1 o]. exact HT.
Qed.
Print Assumptions C52_got.

(** A matching response that is there when get_response is called is returned at once. *)
Theorem C52_get : forall anc ls p s t,
  (exists x, In x (responses s (trace anc ls)) /\ (t = (-1)%Z \/ i_tid x = t)) ->
  exists x, snd (step anc (after anc ls) (LGet p s t)) = [OGot p s x].
Proof.
  intros anc ls p s t (x & Hx & HT). rewrite <- C52_queue in Hx. cbn [step]. unfold get_call.
  destruct (respq (after anc ls) s) as [|z q] eqn:E; [destruct Hx|]. unfold get_scan.
  destruct (Z.eqb_spec t (-1)); [rewrite E; eexists; reflexivity|]. destruct HT as [HT|HT]; [congruence|].
  destruct (take_tid t (respq (after anc ls) s)) as [[w q']|] eqn:E2; [eexists; reflexivity|].
  exfalso. rewrite E in E2. exact (take_tid_none _ _ E2 x Hx HT).
Qed.
Print Assumptions C52_get.

(** But a process that waits can miss it: 0 waits for id 5 while one other response is
    queued; that one is fetched by 1, and response 5 arrives: process 0 sees the size it
    saw before and goes on waiting, whenever it is woken. *)
Definition lost_get : list lab :=
  [LStart 1; LRequest 1 false] ++ one 0 1 7 ++
  [LPut (Item 1 3 0); LGet 0 1 5; LGet 1 1 (-1); LPut (Item 1 5 0)].
Theorem C52_lost_limit : exists ls, asked 0 ls None = Some (1, 5%Z)
  /\ responses 1 (trace anc1 ls) = [Item 1 5 0]
  /\ (forall p x, In (OGot p 1 x) (trace anc1 ls) -> i_tid x <> 5%Z)
  /\ forall n, snd (run_machine (step anc1) (after anc1 ls) (repeat (LGetWake 0) n)) = [].
Proof.
  exists lost_get. split; [vm_compute; reflexivity|]. split; [vm_compute; reflexivity|]. split.
  - assert (HB : forallb (fun o => match o with OGot _ _ x => negb (Z.eqb (i_tid x) 5) | _ => true end)
                   (trace anc1 lost_get) = true) by (vm_compute; reflexivity).
    intros p x H. rewrite forallb_forall in HB. specialize (HB _ H). clear H. cbn in HB.
    apply negb_true_iff, Z.eqb_neq in HB. exact HB.
  - clear. assert (G : forall y, getters y 0 = Some (Getter 1 5 (Some 1)) -> length (respq y 1) = 1 ->
        forall n, snd (run_machine (step anc1) y (repeat (LGetWake 0) n)) = []).
    { intros y H1 H2 n. induction n as [|n IH]; [reflexivity|]. cbn [repeat run_machine step].
      unfold get_wake. rewrite H1. cbn [g_size g_seq]. rewrite H2. cbn [Nat.eqb].
      destruct (run_machine (step anc1) y (repeat (LGetWake 0) n)) as [y2 o2]. exact IH. }
    apply G; vm_compute; reflexivity.
Qed.
Print Assumptions C52_lost_limit.

Example C52_example :
  let ls := [LStart 1; LStart 3; LRequest 3 false] ++ one 0 3 7 ++
            [LPut (Item 2 7 1); LPut (Item 2 9 2); LPut (Item 2 7 3)] in
  In (OSent 3 (Item 2 7 7)) (trace anc1 ls)
  /\ responses 3 (trace anc1 ls) = [Item 2 7 1; Item 2 9 2; Item 2 7 3]
  /\ snd (step anc1 (after anc1 ls) (LGet 0 3 9)) = [OGot 0 3 (Item 2 9 2)]
  /\ responses 3 (trace anc1 (ls ++ [LGet 0 3 9])) = [Item 2 7 1; Item 2 7 3]
  /\ snd (step anc1 (after anc1 ls) (LGet 0 3 (-1))) = [OGot 0 3 (Item 2 7 1)].
Proof. vm_compute. intuition. Qed.

(** ** C87 *)

(** As long as no fatal report was made and try_next_item is not called between peek and
    item_done, each selection is followed, before the next, by its grant, one item sent
    by the granted sequence, and its removal by the driver; what the driver sees in
    between is that item. *)
Definition try_ok (anc : nat -> list nat) (ls : list lab) : Prop :=
  forall pre rel rnd post, ls = pre ++ LTry rel rnd :: post ->
    requested (after anc pre) = true -> called (after anc pre) = true.
Theorem C87_handshake : forall anc ls, ~ In OFatal (trace anc ls) -> try_ok anc ls ->
  hs PIdle (trace anc ls) <> None.
Proof. intros anc ls H1 H2. destruct (hs_run anc ls H1 H2) as (p & E & _). unfold trace. rewrite E. discriminate. Qed.
Print Assumptions C87_handshake.

(** So the driver takes exactly the items sent, in order; at most one is underway. *)
Theorem C87_stream : forall anc ls, ~ In OFatal (trace anc ls) -> try_ok anc ls ->
  sent (trace anc ls) = taken (trace anc ls) ++ fifo (after anc ls) /\ length (fifo (after anc ls)) <= 1.
Proof.
  intros anc ls H1 H2. destruct (hs_run anc ls H1 H2) as (p & E & HI). fold (trace anc ls) in *. fold (after anc ls) in HI.
  apply hs_sent in E. cbn [app] in E. rewrite E.
  destruct p; cbn [hinv] in HI; (assert (HF : fifo (after anc ls) = match PIdle with PItem x => [x] | _ => [] end) by tauto)
    || (assert (HF : fifo (after anc ls) = [x]) by tauto); rewrite HF; cbn; auto.
Qed.
Print Assumptions C87_stream.

(** peek followed by try_next_item grants two requests at once, and the second sender
    is stopped by a fatal report. *)
Definition two_grants : list lab :=
  [LRequest 1 false; LRequest 3 false; LPeek yes 0; LTry yes 0; LGrant 0; LGrant 1; LSend 1 7 7; LSend 3 8 8].
Theorem C87_try_limit : exists ls, In OOverflow (trace anc1 ls) /\ hs PIdle (trace anc1 ls) = None
  /\ ~ In OFatal (trace anc1 (removelast ls)).
Proof.
  exists two_grants. split; [vm_compute; tauto|]. split; [reflexivity|]. vm_compute. intuition discriminate.
Qed.
Print Assumptions C87_try_limit.

Example C87_example :
  let ls := [LRequest 1 false; LRequest 3 false] ++ one 0 1 7 ++
            [LPeek yes 0; LGrant 1; LNext yes 0; LSend 3 8 8; LItem; LGetItem; LRequest 1 false; LTry yes 0] in
  ~ In OFatal (trace anc1 ls) /\ try_ok anc1 ls /\ taken (trace anc1 ls) = [Item 1 7 7; Item 2 8 8]
  /\ hs PIdle (trace anc1 ls) = Some (PSelected 2 1).
Proof.
  split; [vm_compute; intuition discriminate|]. split; [|split; reflexivity].
  intros pre rel rnd post E HR. exfalso. revert HR.
  assert (HP : pre = [LRequest 1 false; LRequest 3 false] ++ one 0 1 7 ++
            [LPeek yes 0; LGrant 1; LNext yes 0; LSend 3 8 8; LItem; LGetItem; LRequest 1 false]).
  { cbn in E. do 14 (destruct pre as [|? pre]; [cbn in E; discriminate|]; cbn in E; injection E as <- E).
    destruct pre as [|? pre]; [reflexivity|]. exfalso. cbn in E. injection E as _ E. destruct pre; discriminate. }
  subst pre. vm_compute. discriminate.
Qed.

(** ** C88 *)

(** Random arbitration: any relevant request can be chosen, nothing else is. *)
Theorem C88_random : forall anc ls rel, no_locks (trace anc ls) -> arb (after anc ls) = 2 ->
  requested (after anc ls) = false ->
  (forall r s, In (r, s) (pendings (trace anc ls)) -> rel s = true ->
     exists rnd, In (OSelected r s) (snd (step anc (after anc ls) (LNext rel rnd)))) /\
  (forall rnd r s, In (OSelected r s) (snd (step anc (after anc ls) (LNext rel rnd))) ->
     In (r, s) (pendings (trace anc ls)) /\ rel s = true).
Proof.
  intros anc ls rel HL HA HQ. unfold trace in *. rewrite <- (ai_pend _ _ (ainv_run anc ls)).
  fold (after anc ls). cbn [core aq].
  pose proof (nolock_run anc ls HL) as HQK. fold (after anc ls) in HQK. set (y := after anc ls) in *. split.
  - intros r s Hin HR. apply in_reqs in Hin as (z & Hz & HK & <- & <-).
    assert (HB : is_blocked anc y (r_seq z) = false) by (apply is_blocked_nil; apply locks_run).
    destruct (avail_some anc y rel (arbq y) 0 z Hz HK HB HR) as (k & Hk & Hn & _). rewrite Nat.sub_0_r in Hn.
    apply In_nth_error in Hk as [rnd Hk]. exists rnd.
    assert (HC : choose anc y rel rnd = CSome k).
    { unfold choose. rewrite (lock_first_false y HQK), HA. cbn [Nat.eqb].
      destruct (avail anc y rel 0 (arbq y)) as [|i l]; [destruct rnd; discriminate|].
      destruct l as [|j l]; [|now rewrite Hk]. destruct rnd as [|[|rnd]]; cbn in Hk; congruence. }
    cbn [step]. rewrite HQ. unfold try_select. rewrite HC. pose proof (select_out y k) as HO. rewrite Hn in HO.
    destruct (select y k) as [y1 o]. cbn [snd fst] in *. subst o. apply in_app_iff. right. now left.
  - intros rnd r s H. apply sel_choose in H as (rel' & rnd' & i & q & Hask & HC & HN & <- & <-).
    assert (rel' = rel) as -> by (unfold asks in Hask; intuition congruence).
    apply choose_nth in HC as (q' & HN' & HK & _ & HR). rewrite HN in HN'. injection HN' as <-.
    split; [|auto]. apply nth_error_In in HN. unfold reqs. apply in_map_iff. exists q. split; [auto|].
    apply filter_In. now rewrite HK.
Qed.
Print Assumptions C88_random.

(** Every other mode ends in a fatal report as soon as two requests are available. *)
Theorem C88_modes : forall anc ls rel rnd r s r' s', no_locks (trace anc ls) ->
  arb (after anc ls) <> 0 -> arb (after anc ls) <> 2 -> requested (after anc ls) = false -> called (after anc ls) = false ->
  In (r, s) (pendings (trace anc ls)) -> In (r', s') (pendings (trace anc ls)) -> r <> r' ->
  rel s = true -> rel s' = true -> snd (step anc (after anc ls) (LNext rel rnd)) = [OFatal].
Proof.
  intros anc ls rel rnd r s r' s' HL H0 H2 HQ HCl. unfold trace in *. rewrite <- (ai_pend _ _ (ainv_run anc ls)).
  pose proof (nolock_run anc ls HL) as HQK. fold (after anc ls) in *. set (y := after anc ls) in *. cbn [core aq].
  intros Hin Hin' HN HR HR'.
  apply in_reqs in Hin as (z & Hz & HK & <- & <-). apply in_reqs in Hin' as (z' & Hz' & HK' & <- & <-).
  assert (HB : forall s, is_blocked anc y s = false) by (intros; apply is_blocked_nil; apply locks_run).
  destruct (avail_some anc y rel (arbq y) 0 z Hz HK (HB _) HR) as (k & Hk & Hn & _).
  destruct (avail_some anc y rel (arbq y) 0 z' Hz' HK' (HB _) HR') as (k' & Hk' & Hn' & _).
  assert (HC : choose anc y rel rnd = CFatal).
  { unfold choose. rewrite (lock_first_false y HQK).
    destruct (avail anc y rel 0 (arbq y)) as [|i l]; [destruct Hk|].
    apply Nat.eqb_neq in H0. apply Nat.eqb_neq in H2. rewrite H0. destruct l as [|j l]; [|now rewrite H2].
    destruct Hk as [<-|[]], Hk' as [<-|[]]. congruence. }
  cbn [step]. rewrite HQ, HCl. unfold try_select. now rewrite HC.
Qed.
Print Assumptions C88_modes.

Example C88_example :
  let ls a := [LArb a; LRequest 1 false; LRequest 3 false; LRequest 2 false] in
  no_locks (trace anc1 (ls 2)) /\ snd (step anc1 (after anc1 (ls 2)) (LNext yes 1)) = [OSelected 1 3]
  /\ pendings (trace anc1 (ls 3)) = [(0, 1); (1, 3); (2, 2)]
  /\ snd (step anc1 (after anc1 (ls 3)) (LNext yes 1)) = [OFatal].
Proof. split; [|repeat split; reflexivity]. apply no_locks_b. vm_compute. reflexivity. Qed.

(** ** C89 *)

(** finish_item returns only after an item of its sequence was completed by the driver
    since it was called. *)
Theorem C89_not_early : forall anc ls s, In (ODoneSeen s) (snd (step anc (after anc ls) (LWakeDone s))) ->
  (0 < sid (after anc ls) s)%Z ->
  exists pre mid x, ls = pre ++ LWaitDone s :: mid /\ ~ In (LWaitDone s) mid
    /\ In (OTaken x) (snd (run_machine (step anc) (after anc (pre ++ [LWaitDone s])) mid))
    /\ i_sid x = sid (after anc ls) s.
Proof.
  intros anc ls s H HP. cbn [step] in H. destruct (iwait _ s) as [[]|] eqn:EW; try (destruct H; fail).
  destruct (Z.eqb_spec (done_sid (after anc ls)) (sid (after anc ls) s)) as [E|E]; [|destruct H].
  destruct (wait_run anc ls s) as (pre & mid & E1 & E2 & E3).
  { unfold after in EW. rewrite EW. discriminate. }
  fold (after anc ls) in E3. rewrite E in E3. destruct (E3 HP) as (x & Hx & Hi).
  exists pre, mid, x. auto.
Qed.
Print Assumptions C89_not_early.

(** If the driver completes the item, then some sequence asks for a grant, and the
    process then runs before anyone else calls finish_item, it returns. *)
Theorem C89_done : forall anc y s x s' lk, iwait y s <> None -> fifo y = [x] -> i_sid x = sid y s ->
  (0 < sid y s)%Z ->
  In (ODoneSeen s) (snd (run_machine (step anc) y [LDone None; LRequest s' lk; LWakeDone s])).
Proof.
  intros anc y s x s' lk HW HF HE HP.
  cbn [run_machine step]. unfold item_done. change (fifo (set_flags y false false)) with (fifo y). rewrite HF.
  cbn [existsb]. set (y1 := set_wait _ _ _ _).
  assert (H1 : iwait y1 s <> None /\ done_sid y1 = sid y1 s /\ (0 < sid y1 s)%Z) by (unfold y1; sq; auto).
  clearbody y1. destruct H1 as (H1 & H2 & H3). unfold request.
  assert (HR : iwait (register y1 s') s = iwait y1 s /\ done_sid (register y1 s') = done_sid y1
               /\ sid (register y1 s') s = sid y1 s).
  { unfold register. destruct (Z.gtb (sid y1 s') 0) eqn:EG; [auto|]. sq. repeat split; auto.
    unfold upd. destruct (Nat.eqb_spec s s') as [->|N]; [|auto].
    exfalso. apply Z.gtb_lt in H3. rewrite EG in H3. discriminate. }
  destruct HR as (R1 & R2 & R3). cbn zeta. sq. rewrite R1, R2, R3, H2, Z.eqb_refl.
  destruct (iwait y1 s); [|congruence]. cbn [snd]. rewrite !in_app_iff. right. right. left. now left.
Qed.
Print Assumptions C89_done.

(** item_done alone does not wake it: if the driver then does nothing more, the process
    never returns, though its item was completed. *)
Definition done_unseen : list lab :=
  [LStart 1; LRequest 1 false; LNext yes 0; LGrant 0; LSend 1 7 7; LClear; LWaitDone 1; LItem; LDone None].
Theorem C89_unseen_limit : exists ls, In (OTaken (Item 1 7 7)) (trace anc1 ls)
  /\ In (OSent 1 (Item 1 7 7)) (trace anc1 ls) /\ iwait (after anc1 ls) 1 <> None
  /\ forall n, snd (run_machine (step anc1) (after anc1 ls) (repeat (LWakeDone 1) n)) = [].
Proof.
  exists done_unseen. split; [vm_compute; tauto|]. split; [vm_compute; tauto|]. split; [vm_compute; discriminate|].
  intros n. assert (G : iwait (after anc1 done_unseen) 1 = Some false) by reflexivity.
  revert G. generalize (after anc1 done_unseen) as y. intros y G.
  induction n as [|n IH]; [reflexivity|]. cbn [repeat run_machine step]. rewrite G.
  destruct (run_machine (step anc1) y (repeat (LWakeDone 1) n)) as [y2 o2]. exact IH.
Qed.
Print Assumptions C89_unseen_limit.

(** And it misses the completion for good if another sequence calls finish_item first. *)
Definition done_lost : list lab :=
  [LStart 1; LStart 3; LRequest 1 false; LRequest 3 false; LNext yes 0; LGrant 0; LSend 1 7 7; LClear; LWaitDone 1;
   LItem; LDone None; LNext yes 0; LGrant 1; LSend 3 8 8; LWaitDone 3; LWakeDone 1; LItem; LDone None;
   LNext yes 0; LWakeDone 3; LWakeDone 1].
Theorem C89_overtaken_limit : exists ls, taken (trace anc1 ls) = [Item 1 7 7; Item 2 8 8]
  /\ In (ODoneSeen 3) (trace anc1 (ls ++ [LRequest 3 false; LWakeDone 3; LWakeDone 1]))
  /\ ~ In (ODoneSeen 1) (trace anc1 (ls ++ [LRequest 3 false; LWakeDone 3; LWakeDone 1])).
Proof.
  exists done_lost. split; [reflexivity|]. split; [vm_compute; tauto|]. vm_compute. intuition discriminate.
Qed.
Print Assumptions C89_overtaken_limit.

Example C89_example :
  let y := after anc1 (removelast done_unseen) in
  iwait y 1 <> None /\ fifo y = [Item 1 7 7] /\ sid y 1 = 1%Z
  /\ snd (run_machine (step anc1) y [LDone None; LRequest 3 false; LWakeDone 1])
     = [OTaken (Item 1 7 7); ORequested 1 3; ODoneSeen 1].
Proof. split; [vm_compute; discriminate|]. repeat split; vm_compute; reflexivity. Qed.
