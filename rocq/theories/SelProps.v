From Coq Require Import ZArith List Bool Arith Lia.
From Verif Require Import Prelude SeqrModel SeqrSpec SeqrProofs SelModel SelSpec SelProofs.
Import ListNotations.
Local Open Scope nat_scope.

(** The state and what was seen after a history. *)
Definition safter (anc : nat -> list nat) (ls : list slab) : sel := fst (run_machine (sstep anc) sel0 ls).
Definition strace (anc : nat -> list nat) (ls : list slab) : list sout := snd (run_machine (sstep anc) sel0 ls).

Lemma in_selections r q tr : In (OSelected r q) tr -> In (r, q) (selections tr).
Proof.
  induction tr as [|o tr IH]; [intros []|]. intros [->|H]; [now left|].
  destruct o; cbn [selections]; auto. right; auto.
Qed.
Lemma grants_in r q tr : In (r, q) (grants tr) -> In (OGranted r q) tr.
Proof.
  induction tr as [|o tr IH]; [intros []|]. intros H. destruct o; cbn [grants] in H; try (right; auto; fail).
  destruct H as [[= -> ->]|H]; [now left|right; auto].
Qed.
Lemma in_evs o tr : In (Ev o) tr -> In o (evs tr).
Proof. intros H. unfold evs. apply in_flat_map. exists (Ev o). split; [exact H|now left]. Qed.

(** ** C160 *)

(** Whatever happened, a sequence whose request has been chosen is awake: running it makes
    its wait_for_grant return. *)
Theorem C160_chosen : forall anc ls r q, In (Ev (OSelected r q)) (strace anc ls) ->
  (forall q', ~ In (Ev (OGranted r q')) (strace anc ls)) ->
  snd (sstep anc (safter anc ls) (SGrant r)) = [Ev (OGranted r q)].
Proof.
  intros anc ls r q HS HG. unfold safter, strace in *. pose proof (winv_run anc ls) as W.
  set (s := fst (run_machine (sstep anc) sel0 ls)) in *. set (tr := snd (run_machine (sstep anc) sel0 ls)) in *.
  pose proof (wi_a _ _ W) as A. apply in_evs, in_selections in HS.
  assert (G : ~ In r (map fst (grants (evs tr)))).
  { intros H. apply in_map_iff in H as ((r', q') & E & H). cbn [fst] in E. subst r'.
    apply grants_in, evs_in in H. exact (HG q' H). }
  assert (HC : In r (completed (sy s))).
  { apply (ai_comp2 _ _ A); auto. apply in_map_iff. exists (r, q). auto. }
  destruct (wi_comp _ _ W r HC) as (c & Ew & Hc).
  destruct (ai_sel _ _ A _ _ HS) as (HR & _). pose proof (ai_wait2 _ _ A _ _ HR G) as HW. cbn [core aw] in HW.
  cbn [sstep]. unfold grant_run. rewrite Ew. destruct (Nat.eqb_spec c (lsize s)); [lia|]. sl.
  unfold granted. change (waiting (clear (sy s))) with (waiting (sy s)).
  change (completed (clear (sy s))) with (completed (sy s)).
  apply in_existsb_nat in HC. rewrite HC. destruct (find _ _) as [[r' q']|] eqn:F.
  - apply find_some in F as [F1 F2]. cbn [fst] in F2. apply Nat.eqb_eq in F2. subst r'.
    pose proof (ai_wait _ _ A _ _ F1) as H1. cbn. now rewrite (fst_inj _ _ _ _ (ai_rnd _ _ A) H1 HR).
  - exfalso. eapply find_none in F; [|exact HW]. cbn [fst] in F. now rewrite Nat.eqb_refl in F.
Qed.
Print Assumptions C160_chosen.

(** The driver sleeps in get_next_item, peek or get only while no request is pending. *)
Theorem C160_driver : forall anc ls, Forall zero_or_one ls -> lockless (strace anc ls) ->
  asleep (drv (safter anc ls)) -> pendings (evs (strace anc ls)) = [].
Proof.
  intros anc ls Z N D. unfold safter, strace in *. pose proof (winv_run anc ls) as W.
  pose proof (qinv_run anc ls Z N) as [_ Q].
  set (s := fst (run_machine (sstep anc) sel0 ls)) in *.
  rewrite <- (ai_pend _ _ (wi_a _ _ W)). cbn [core aq].
  destruct (drv s) as [|k|k b| |k] eqn:E; try (destruct D; fail). cbn [asleep] in D.
  rewrite (Q k b); [reflexivity|auto|]. eapply (wi_wait _ _ W); eauto.
Qed.
Print Assumptions C160_driver.

(** So while a relevant request is pending, running the driver at most twice chooses one. *)
Theorem C160_progress : forall anc ls r q rv rnd, Forall zero_or_one ls -> Forall first_come ls ->
  lockless (strace anc ls) -> seeking (drv (safter anc ls)) ->
  In (r, q) (pendings (evs (strace anc ls))) -> rv q = 1%Z ->
  exists r' q', In (Ev (OSelected r' q'))
    (snd (run_machine (sstep anc) (safter anc ls) [SDrv rv rnd; SDrv rv rnd])).
Proof.
  intros anc ls r q rv rnd Z M N D P R. unfold safter, strace in *. pose proof (winv_run anc ls) as W.
  pose proof (qinv_run anc ls Z N) as [K Q]. pose proof (mode_srun anc ls M) as HM.
  set (s := fst (run_machine (sstep anc) sel0 ls)) in *.
  rewrite <- (ai_pend _ _ (wi_a _ _ W)) in P. cbn [core aq] in P. pose proof (wi_locks _ _ W) as L.
  cbn [run_machine].
  destruct (drv s) as [|k|k b| |k] eqn:E; try (destruct D; fail).
  - destruct (drv_selects anc s k rv rnd r q E L HM K P R) as (r' & q' & H). exists r', q'.
    destruct (sstep anc s (SDrv rv rnd)) as [s1 o1]. destruct (sstep anc s1 (SDrv rv rnd)) as [s2 o2]. cbn [snd] in *.
    apply in_app_iff. auto.
  - assert (NE : asize s <> lsize s).
    { intros X. rewrite (Q k b eq_refl X) in P. destruct P. }
    assert (B : b = true). { destruct b; [auto|]. exfalso. apply NE. eapply (wi_wait _ _ W); eauto. }
    subst b. cbn [sstep]. unfold drv_run at 1. rewrite E. apply Nat.eqb_neq in NE. rewrite NE.
    set (s1 := set_drv (set_sy s (clear (sy s))) (DNba k)).
    destruct (drv_selects anc s1 k rv rnd r q) as (r' & q' & H); auto.
    exists r', q'. cbn [sstep] in H. destruct (drv_run anc s1 rv rnd) as [s2 o2]. cbn [snd app] in *.
    rewrite app_nil_r. exact H.
Qed.
Print Assumptions C160_progress.

Definition no_anc (_ : nat) : list nat := [].
Definition rel1 (_ : nat) : Z := 1%Z.
Definition rel0 (_ : nat) : Z := 0%Z.
Definition rel2 (_ : nat) : Z := 2%Z.

(** The driver asks and falls asleep; two sequences ask, and one of them sleeps too; the driver
    chooses, and both the chosen sequence and the driver go on. *)
Definition nap : list slab :=
  [SCall KNext; SDrv rel1 0; SDrv rel1 0].
Definition nap2 : list slab := nap ++ [SCore (LRequest 1 false); SCore (LRequest 2 false); SGrant 1; SGrant 1].
Example C160_example :
  drv (safter no_anc nap) = DWait KNext false /\
  drv (safter no_anc nap2) = DWait KNext true /\ wst (safter no_anc nap2) 1 = Some (2, false) /\
  snd (run_machine (sstep no_anc) (safter no_anc nap2) [SDrv rel1 0; SGrant 0; SDrv rel1 0; SGrant 1; SGrant 0])
    = [Ev (OSelected 0 1); Ev (OGranted 0 1)] /\
  Forall zero_or_one nap2 /\ Forall first_come nap2 /\ pendings (evs (strace no_anc nap2)) = [(0, 1); (1, 2)].
Proof.
  split; [reflexivity|]. split; [reflexivity|]. split; [reflexivity|]. split; [reflexivity|].
  split; [repeat (apply Forall_cons; [solve [exact I | intros s; now right]|]); apply Forall_nil|]. split; [repeat constructor|reflexivity].
Qed.

(** If is_relevant() returns something else, 2 say, the driver sleeps although a request is
    pending, until another one comes or goes. *)
Theorem C160_value_limit : exists ls, asleep (drv (safter no_anc ls)) /\ lockless (strace no_anc ls) /\
  pendings (evs (strace no_anc ls)) = [(0, 1)].
Proof.
  exists [SCore (LRequest 1 false); SCall KNext; SDrv rel2 0; SDrv rel2 0]. split; [reflexivity|]. split; [|reflexivity].
  intros r s H. cbn in H. intuition discriminate.
Qed.
Print Assumptions C160_value_limit.

(** With a lock request at the front the driver raises when it looks, whichever call it is in. *)
Theorem C160_lock_limit : forall anc ls k rv rnd, lock_first (sy (safter anc ls)) = true ->
  drv (safter anc ls) = DNba k ->
  snd (sstep anc (safter anc ls) (SDrv rv rnd)) = [Ev OExn].
Proof.
  intros anc ls k rv rnd L D. cbn [sstep]. unfold drv_run. rewrite D. unfold drv_choose, choose. rewrite L. reflexivity.
Qed.
Print Assumptions C160_lock_limit.
Example C160_lock_example : let s := safter no_anc [SCore (LRequest 1 true); SCall KGet] in
  lock_first (sy s) = true /\ drv s = DNba KGet.
Proof. split; reflexivity. Qed.

(** ** C161 *)

(** While all pending requests are irrelevant, get_next_item, peek and get raise instead of
    waiting until one becomes relevant. *)
Theorem C161_irrelevant : forall anc ls k rv rnd, lockless (strace anc ls) ->
  drv (safter anc ls) = DNba k -> pendings (evs (strace anc ls)) <> [] ->
  (forall r q, In (r, q) (pendings (evs (strace anc ls))) -> rv q = 0%Z) ->
  let s := sstep anc (safter anc ls) (SDrv rv rnd) in
  snd s = [match k with KTry => NoItem | _ => Raised end] /\ drv (fst s) = DIdle.
Proof.
  intros anc ls k rv rnd N D P R. unfold safter, strace in *. pose proof (winv_run anc ls) as W.
  assert (K : forall z, In z (arbq (sy (fst (run_machine (sstep anc) sel0 ls)))) -> r_kind z = KReq).
  { clear - N. induction ls as [|l ls IH] using rev_ind; [intros z []|].
    rewrite run_machine_app in *. cbn [run_machine] in *.
    set (s := fst (run_machine (sstep anc) sel0 ls)) in *.
    pose proof (sstep_kind anc s l) as H. destruct (sstep anc s l) as [s1 o]. cbn [fst snd] in *. rewrite app_nil_r in N.
    apply H.
    - intros r q Hin. apply (N r q). apply in_app_iff. auto.
    - apply IH. intros r q Hin. apply (N r q). apply in_app_iff. auto. }
  set (s := fst (run_machine (sstep anc) sel0 ls)) in *.
  rewrite <- (ai_pend _ _ (wi_a _ _ W)) in P, R. cbn [core aq] in P, R. pose proof (wi_locks _ _ W) as L.
  assert (V : forall q i, incl q (arbq (sy s)) -> avail anc (sy s) (relevant rv) i q = []).
  { induction q as [|z q IH]; intros i I; [reflexivity|]. cbn [avail].
    assert (Hz : In z (arbq (sy s))) by (apply I; now left).
    rewrite (K z Hz). unfold relevant at 1. rewrite (R (r_id z) (r_seq z)) by (apply reqs_in2; auto).
    rewrite andb_false_r. apply IH. intros w Hw. apply I. now right. }
  assert (C : choose anc (sy s) (relevant rv) rnd = CNone).
  { unfold choose. rewrite (lock_first_false _ K), (V (arbq (sy s)) 0 (incl_refl _)). reflexivity. }
  assert (I : irrelevant anc (sy s) rv = true).
  { destruct (arbq (sy s)) as [|z q] eqn:E; [now destruct P|].
    unfold irrelevant. rewrite E. cbn [existsb]. rewrite (K z (or_introl eq_refl)), (is_blocked_nil anc _ _ L).
    rewrite (R (r_id z) (r_seq z)); [reflexivity|]. apply reqs_in2; [now left|apply K; now left]. }
  cbn [sstep]. unfold drv_run. rewrite D. unfold drv_choose. rewrite C. destruct k; rewrite ?I; split; reflexivity.
Qed.
Print Assumptions C161_irrelevant.

(** A single relevant request is enough for the call to go on: the others wait. *)
Example C161_example :
  let ls := [SCore (LRequest 1 false); SCore (LRequest 2 false); SCall KPeek] in
  drv (safter no_anc ls) = DNba KPeek /\
  snd (sstep no_anc (safter no_anc ls) (SDrv rel0 0)) = [Raised] /\
  snd (sstep no_anc (safter no_anc ls) (SDrv (fun q => if Nat.eqb q 2 then 1%Z else 0%Z) 0)) = [Ev (OSelected 1 2)] /\
  snd (sstep no_anc (safter no_anc [SCore (LRequest 1 false); SCall KTry]) (SDrv rel0 0)) = [NoItem].
Proof. repeat split; reflexivity. Qed.

(** ** C162 *)

(** While a sequence that was started or has made a request has not ended, stop_sequences()
    raises and changes nothing. *)
Theorem C162_raises : forall anc ls q,
  In (SCore (LStart q)) ls \/ (exists lk, In (SCore (LRequest q lk)) ls) -> ~ In (SCore (LExit q)) ls ->
  sstep anc (safter anc ls) SStop = (safter anc ls, [StopRaised]).
Proof.
  intros anc ls q HS HN. pose proof (live_sel anc q ls HN HS) as (H1 & H2 & H3). unfold safter.
  cbn [sstep]. set (s := fst (run_machine (sstep anc) sel0 ls)) in *.
  assert (R : registered (sy s) = true).
  { unfold registered. apply existsb_exists. exists (Z.to_nat (sid (sy s) q)). split.
    - apply in_seq. lia.
    - rewrite Z2Nat.id by lia. now rewrite H2. }
  now rewrite R.
Qed.
Print Assumptions C162_raises.

(** When it returns while the driver is not in a call, get_next_item never again chooses a
    request, until the driver calls peek, get, try_next_item or item_done. *)
Theorem C162_deaf : forall anc s ls, snd (sstep anc s SStop) = [Stopped] -> drv s = DIdle -> Forall next_only ls ->
  forall r q, ~ In (Ev (OSelected r q)) (snd (run_machine (sstep anc) (fst (sstep anc s SStop)) ls)).
Proof.
  intros anc s ls HS D F. assert (J : deaf (fst (sstep anc s SStop))).
  { cbn [sstep] in *. destruct (registered (sy s)); [discriminate|]. split; [now right|]. left. exact D. }
  clear HS D. revert J. generalize (fst (sstep anc s SStop)) as s0. clear s.
  induction ls as [|l ls IH]; intros s0 J r q; [intros []|]. cbn [run_machine].
  apply Forall_cons_iff in F as [F1 F2]. destruct (deaf_step anc s0 l F1 J) as [J1 N].
  destruct (sstep anc s0 l) as [s1 o1]. cbn [fst snd] in *. specialize (IH F2 s1 J1 r q).
  destruct (run_machine (sstep anc) s1 ls) as [s2 o2]. cbn [snd] in *. rewrite in_app_iff. intros [H|H]; [now apply (N r q)|auto].
Qed.
Print Assumptions C162_deaf.
(** The other calls look for a request at once, and get_next_item() does so again after an item_done(). *)
Theorem C162_hears : forall anc s, snd (sstep anc s SStop) = [Stopped] -> drv s = DIdle ->
  let s1 := fst (sstep anc s SStop) in
  (forall k, k <> KNext -> drv (fst (sstep anc s1 (SCall k))) = DNba k) /\
  (forall rsp, snd (sstep anc s1 (SDone rsp)) = [Ev OFatal] /\
     drv (fst (sstep anc (fst (sstep anc s1 (SDone rsp))) (SCall KNext))) = DNba KNext).
Proof.
  intros anc s HS D. cbn [sstep] in *. destruct (registered (sy s)); [discriminate|]. cbn [fst]. split.
  - intros k N. unfold drv_call. cbn [drv set_zero set_sy]. rewrite D. destruct k; [congruence|reflexivity..].
  - intros rsp. split; [reflexivity|]. cbn. unfold drv_call. cbn. rewrite D. reflexivity.
Qed.
Print Assumptions C162_hears.

(** One item went through, its sequence ended, stop_sequences() returns; then get_next_item hangs
    although a request is pending, peek does not. *)
Definition one_item : list slab :=
  [SCore (LStart 1); SCore (LRequest 1 false); SCall KNext; SDrv rel1 0; SGrant 0; SCore (LSend 1 7%Z 7); SDrv rel1 0;
   SDone None; SCore (LExit 1)].
Definition hang : list slab := [SCore (LStart 2); SCore (LRequest 2 false); SCall KNext; SDrv rel1 0; SDrv rel1 0].
Example C162_example :
  let s := safter no_anc one_item in
  strace no_anc one_item = [Ev (OCleared 1); Ev (ORequested 0 1); Ev (OSelected 0 1); Ev (OGranted 0 1);
     Ev (OSent 1 (Item 1 7 7)); Ev (OItem (Item 1 7 7)); Ev (OTaken (Item 1 7 7))] /\
  drv s = DIdle /\ snd (sstep no_anc s SStop) = [Stopped] /\
  snd (run_machine (sstep no_anc) s hang) = [Ev (OCleared 2); Ev (ORequested 1 2); Ev (OSelected 1 2)] /\
  Forall next_only hang /\
  snd (run_machine (sstep no_anc) (fst (sstep no_anc s SStop)) hang) = [Ev (OCleared 2); Ev (ORequested 1 2)] /\
  drv (fst (run_machine (sstep no_anc) (fst (sstep no_anc s SStop)) hang)) = DFifo KNext /\
  snd (run_machine (sstep no_anc) (fst (sstep no_anc s SStop))
         [SCore (LRequest 2 false); SCall KPeek; SDrv rel1 0]) = [Ev (ORequested 1 2); Ev (OSelected 1 2)].
Proof.
  split; [reflexivity|]. split; [reflexivity|]. split; [reflexivity|]. split; [reflexivity|].
  split; [repeat constructor|]. split; [reflexivity|]. split; reflexivity.
Qed.
