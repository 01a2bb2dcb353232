(** C59: phasing completes. *)
From Coq Require Import ZArith List Bool Arith Lia.
From Verif Require Import Prelude PhaseRunModel PhaseRunProps.
Import ListNotations.
Local Open Scope nat_scope.

Section P.
Context (g : pgraph) (fuel : nat).
Notation prog := (prog g fuel).
Notation stepo := (stepo g fuel).
Notation pstep := (pstep g fuel).
Notation stuck := (stuck g fuel).
Notation keys := (PhaseRunProps.keys).
Context (root : nat) (rank : nat -> nat).
Notation follows := (follows g root).
(** Two task phases that wait for each other, and only for each other. *)
Definition paired (n m : nat) : Prop :=
  (follows n /\ follows m) /\ (isnode g n = true /\ isnode g m = true) /\ (istask g n = true /\ istask g m = true) /\
  (siblings g fuel n = SOk [m] /\ siblings g fuel m = SOk [n]) /\ rank n = rank m /\ n <> m.
Context (H_sym : forall n m, In m (succs g n) <-> In n (preds g m)).
Context (H_acyclic : forall n m, In m (succs g n) -> rank n < rank m).
Context (H_closed : forall n m, follows n -> In m (preds g n) -> follows m).
Context (H_sib : forall n, follows n -> isnode g n = true -> siblings g fuel n = SOk [] \/ exists m, paired n m).

Lemma paired_sym n m : paired n m -> paired m n.
Proof. unfold paired. intuition. Qed.
Lemma paired_fun n m m' : paired n m -> paired n m' -> m = m'.
Proof. intros (_ & _ & _ & (H & _) & _) (_ & _ & _ & (H' & _) & _). congruence. Qed.
Lemma paired_inj n n' m : paired n m -> paired n' m -> n = n'.
Proof. intros H H'. apply (paired_fun m); now apply paired_sym. Qed.
Lemma paired_ne n m : paired n m -> n <> m.
Proof. unfold paired. tauto. Qed.

(** *** The programs *)
Lemma pair_prog n m : paired n m -> prog n =
  [IWaitPreds; ISet SYNCING; ISet STARTED; ISet EXECUTING; IExec; IBody; IWaitSib m EXECUTING; ISet READY_TO_END; IWaitSib m EXECUTING; ISet ENDED; ISet CLEANUP; ISet DONE]
  ++ map ISched (succs g n).
Proof. intros (_ & (H1 & _) & (H2 & _) & (H3 & _) & _). unfold PhaseRunModel.prog, sibwait. rewrite H1, H2, H3. reflexivity. Qed.
Definition row (m k : nat) (x : instr) : Prop :=
  match k with
  | 0 => x = IWaitPreds | 1 => x = ISet SYNCING | 2 => x = ISet STARTED | 3 => x = ISet EXECUTING | 4 => x = IExec | 5 => x = IBody
  | 6 => x = IWaitSib m EXECUTING | 7 => x = ISet READY_TO_END | 8 => x = IWaitSib m EXECUTING | 9 => x = ISet ENDED | 10 => x = ISet CLEANUP | 11 => x = ISet DONE
  | _ => exists q, x = ISched q
  end.
Lemma pair_row n m k x : paired n m -> nth_error (prog n) k = Some x -> row m k x.
Proof.
  intros H. rewrite (pair_prog n m H). do 12 (destruct k as [|k]; [cbn; intros [= <-]; reflexivity|]).
  cbn [app nth_error]. intros E. apply nth_error_In, in_map_iff in E as (q & <- & _). cbn. eauto.
Qed.
(** The other programs do not wait for siblings. *)
Lemma wait_paired n k x : follows n -> nth_error (prog n) k = Some x -> x <> IFail /\ (forall q st, x = IWaitSib q st -> paired n q /\ st = EXECUTING /\ (k = 6 \/ k = 8)).
Proof.
  intros Hf E. destruct (isnode g n) eqn:En; [destruct (H_sib n Hf En) as [Hs|(m & Hm)]|].
  - assert (~ In IFail (prog n) /\ forall q st, ~ In (IWaitSib q st) (prog n)) as [N1 N2].
    { unfold PhaseRunModel.prog, sibwait. rewrite En, Hs. split; [|intros q st]; destruct (istask g n); cbn [app map In]; rewrite in_map_iff; intuition (try discriminate); match goal with H : exists _, _ |- _ => destruct H as (? & ? & _); discriminate end. }
    apply nth_error_In in E. split; [intros ->; auto|]. intros q st ->. exfalso. eapply N2; eauto.
  - assert (R := pair_row n m k x Hm E). split.
    + intros ->. do 12 (destruct k as [|k]; [discriminate R|]). destruct R as [q R]. discriminate R.
    + intros q st ->. do 12 (destruct k as [|k]; [try discriminate R; injection R as -> ->; auto|]). destruct R as [q' R]. discriminate R.
  - assert (~ In IFail (prog n) /\ forall q st, ~ In (IWaitSib q st) (prog n)) as [N1 N2].
    { unfold PhaseRunModel.prog. rewrite En. split; [|intros q st]; cbn [app map In]; rewrite in_map_iff; intuition (try discriminate); match goal with H : exists _, _ |- _ => destruct H as (? & ? & _); discriminate end. }
    apply nth_error_In in E. split; [intros ->; auto|]. intros q st ->. exfalso. eapply N2; eauto.
Qed.
Lemma set_high n k st : 4 <= k -> nth_error (prog n) k = Some (ISet st) -> (EXECUTING <= st)%Z.
Proof.
  intros Hk E. do 4 (destruct k as [|k]; [lia|]). unfold PhaseRunModel.prog in E. cbn [app nth_error] in E. apply nth_error_In in E.
  assert (Hs : forall st', ~ In (ISet st) (sibwait g fuel n st')).
  { intros st'. unfold sibwait. destruct (siblings g fuel n); cbn; try (intros [H'|[]]; discriminate H'). rewrite in_map_iff. intros (x & Hx & _). discriminate Hx. }
  rewrite in_app_iff in E. destruct E as [E|[E|E]]; [|injection E as <-; vm_compute; discriminate|rewrite in_map_iff in E; destruct E as (x & Hx & _); discriminate Hx].
  destruct (isnode g n); [|destruct E]. destruct E as [E|E]; [discriminate E|]. rewrite in_app_iff in E.
  destruct E as [E|[E|[E|[]]]]; [|injection E as <-; vm_compute; discriminate|injection E as <-; vm_compute; discriminate].
  destruct (istask g n); [|now apply Hs in E]. destruct E as [E|E]; [discriminate E|]. rewrite in_app_iff in E.
  destruct E as [E|[E|E]]; [now apply Hs in E|injection E as <-; vm_compute; discriminate|now apply Hs in E].
Qed.
Lemma sched_high n k q : nth_error (prog n) k = Some (ISched q) -> 4 <= k.
Proof. intros E. do 4 (destruct k as [|k]; [discriminate E|]). lia. Qed.

(** *** Steps, seen through positions, events and states *)
Definition wpos (s : pstate) (n : nat) : nat := match pos_of (keys s) n with Some k => k | None => 0 end.
Inductive estep (W : nat -> nat) (V : nat -> bool) (M : nat -> Z) (W' : nat -> nat) (V' : nat -> bool) (M' : nat -> Z) : Prop :=
| e_same : (forall x, W' x = W x) -> V' = V -> M' = M -> estep W V M W' V' M'
| e_adv n k x : W n = k -> nth_error (prog n) k = Some x -> (forall st, x <> ISet st) -> (forall q st, x <> IWaitSib q st) ->
    (forall y, W' y = upd W n (S k) y) -> V' = V -> M' = M -> estep W V M W' V' M'
| e_set n k st : W n = k -> nth_error (prog n) k = Some (ISet st) -> (forall y, W' y = upd W n (S k) y) -> V' = upd V n true -> M' = upd M n st -> estep W V M W' V' M'
| e_sched n k q : W n = k -> nth_error (prog n) k = Some (ISched q) -> (M q < SCHEDULED)%Z ->
    (forall y, W' y = upd W n (S k) y) -> V' = upd V q true -> M' = upd M q SCHEDULED -> estep W V M W' V' M'
| e_pass n k q : W n = k -> nth_error (prog n) k = Some (IWaitSib q EXECUTING) -> paired n q -> V q = true -> (EXECUTING <= M q)%Z ->
    (forall y, W' y = upd W n (S k) y) -> V' = upd V q false -> M' = M -> estep W V M W' V' M'
| e_loop n k q : W n = k -> nth_error (prog n) k = Some (IWaitSib q EXECUTING) -> paired n q -> V q = true -> (M q < EXECUTING)%Z ->
    (forall y, W' y = W y) -> V' = upd V q false -> M' = M -> estep W V M W' V' M'.

(** Facts about the two processes of a pair. *)
Definition PF (wn : nat) (vn : bool) (mn : Z) (wm : nat) (vm : bool) (mm : Z) : Prop :=
  ((wn <= 6 -> vm = false -> (mm < EXECUTING)%Z) /\ (wm <= 6 -> vn = false -> (mn < EXECUTING)%Z)) /\
  (wn = 8 -> wm = 8 -> vn = true \/ vm = true) /\
  ((wn = 8 -> 10 <= wm -> vm = true) /\ (wm = 8 -> 10 <= wn -> vn = true)) /\
  ((7 <= wm -> 4 <= wn /\ (wn <= 7 -> vn = false /\ wm <= 8)) /\ (7 <= wn -> 4 <= wm /\ (wm <= 7 -> vm = false /\ wn <= 8))).
Lemma PF_sym wn vn mn wm vm mm : PF wn vn mn wm vm mm -> PF wm vm mm wn vn mn.
Proof. unfold PF. intuition. Qed.
Record einv (W : nat -> nat) (V : nat -> bool) (M : nat -> Z) : Prop := EInv {
  e_low : forall n, 4 <= W n -> (EXECUTING <= M n)%Z;
  e_high : forall n, (EXECUTING <= M n)%Z -> 4 <= W n;
  e_pair : forall n m, paired n m -> PF (W n) (V n) (M n) (W m) (V m) (M m)
}.
Ltac pf := unfold PF in *; repeat match goal with b : bool |- _ => destruct b end; intuition (try discriminate; try lia).
Lemma EXv : EXECUTING = 16%Z. Proof. reflexivity. Qed.
Lemma SCv : SCHEDULED = 2%Z. Proof. reflexivity. Qed.
(** The process of [n] moves. *)
Lemma PF_adv k vn mn wm vm mm : (k <> 3 /\ k <> 6 /\ k <> 7 /\ k <> 8 /\ k <> 9) -> PF k vn mn wm vm mm -> PF (S k) vn mn wm vm mm.
Proof. intros Hk H. pf. Qed.
Lemma PF_set k vn mn wm vm mm st : (k <= 3 \/ k = 7 \/ 9 <= k) -> (4 <= wm -> (EXECUTING <= mm)%Z) -> PF k vn mn wm vm mm -> PF (S k) true st wm vm mm.
Proof. intros Hk Hm H. pf. Qed.
Lemma PF_pass k vn mn wm mm : (k = 6 \/ k = 8) -> (EXECUTING <= mm)%Z -> 4 <= wm -> PF k vn mn wm true mm -> PF (S k) vn mn wm false mm.
Proof. intros Hk Hm Hw H. pf. Qed.
Lemma PF_loop k vn mn wm mm : (k = 6 \/ k = 8) -> (mm < EXECUTING)%Z -> ~ 4 <= wm -> PF k vn mn wm true mm -> PF k vn mn wm false mm.
Proof. intros Hk Hm Hw H. pf. Qed.
Lemma PF_sched wn vn mn wm vm mm : wn < 4 -> PF wn vn mn wm vm mm -> PF wn true SCHEDULED wm vm mm.
Proof. intros Hn H. pose proof EXv. pose proof SCv. pf. Qed.
Lemma einv_step W V M W' V' M' : einv W V M -> estep W V M W' V' M' -> einv W' V' M'.
Proof.
  intros [A1 A2 F] H. pose proof EXv. pose proof SCv.
  destruct H as [EW -> ->|n k x Ek Ex N1 N2 EW -> ->|n k st Ek Ex EW -> ->|n k q Ek Ex Hq EW -> ->|n k q Ek Ex Hp Hv Hm EW -> ->|n k q Ek Ex Hp Hv Hm EW -> ->].
  - constructor; intros; rewrite ?EW in *; auto.
  - constructor.
    + intros y. rewrite EW. unfold upd. destruct (Nat.eqb_spec y n) as [->|]; [|apply A1]. intros Hk. apply A1. rewrite Ek.
      destruct (Nat.eq_dec k 3) as [->|]; [injection Ex as <-; exfalso; now apply (N1 EXECUTING)|lia].
    + intros y Hy. rewrite EW. unfold upd. specialize (A2 y Hy). destruct (Nat.eqb_spec y n) as [->|]; [lia|exact A2].
    + intros a b Hab. specialize (F a b Hab). rewrite !EW. pose proof (paired_ne _ _ Hab) as Hne.
      assert (Hk : forall m, paired n m -> k <> 3 /\ k <> 6 /\ k <> 7 /\ k <> 8 /\ k <> 9).
      { intros m Hm. pose proof (pair_row n m k x Hm Ex) as R. repeat split; intros ->; cbn in R; subst x; ((now apply (N1 _ eq_refl)) || (now apply (N2 _ _ eq_refl))). }
      unfold upd. destruct (Nat.eqb_spec a n) as [->|]; destruct (Nat.eqb_spec b n) as [->|]; try congruence.
      * rewrite <- Ek in *. apply PF_adv; eauto.
      * apply PF_sym, PF_sym in F. apply PF_sym. apply PF_sym in F. rewrite <- Ek in *. apply PF_adv; [eapply Hk, paired_sym; eauto|exact F].
  - constructor.
    + intros y. rewrite EW. unfold upd. destruct (Nat.eqb_spec y n) as [->|]; [|apply A1]. intros Hk.
      destruct (Nat.eq_dec k 3) as [->|]; [injection Ex as <-; lia|apply (set_high n k); [lia|exact Ex]].
    + intros y. rewrite EW. unfold upd. destruct (Nat.eqb_spec y n) as [->|]; [|apply A2]. intros Hst.
      do 3 (destruct k as [|k]; [try discriminate Ex; injection Ex as <-; exfalso; revert Hst; vm_compute; intros Hst; now apply Hst|]). lia.
    + intros a b Hab. specialize (F a b Hab). rewrite !EW. pose proof (paired_ne _ _ Hab) as Hne.
      assert (Hk : forall m, paired n m -> k <= 3 \/ k = 7 \/ 9 <= k).
      { intros m Hm. pose proof (pair_row n m k _ Hm Ex) as R. do 9 (destruct k as [|k]; [try lia; discriminate R|]). lia. }
      unfold upd. destruct (Nat.eqb_spec a n) as [->|]; destruct (Nat.eqb_spec b n) as [->|]; try congruence.
      * rewrite Ek in *. eapply PF_set; eauto.
      * apply PF_sym. apply PF_sym in F. rewrite Ek in *. eapply PF_set; [eapply Hk, paired_sym; eauto|apply A1|exact F].
  - assert (Hk := sched_high n k q Ex). assert (Hlow : W q < 4) by (destruct (Nat.le_gt_cases 4 (W q)) as [G|G]; [apply A1 in G; lia|exact G]).
    assert (n <> q) by (intros ->; lia).
    constructor.
    + intros y. rewrite EW. unfold upd. destruct (Nat.eqb_spec y q) as [->|]; destruct (Nat.eqb_spec q n) as [E|]; try congruence; [lia|].
      destruct (Nat.eqb_spec y n) as [->|]; [intros _; apply A1; lia|apply A1].
    + intros y. rewrite EW. unfold upd. destruct (Nat.eqb_spec y q) as [->|]; [lia|]. intros Hy. apply A2 in Hy. destruct (Nat.eqb_spec y n) as [->|]; [lia|exact Hy].
    + intros a b Hab. pose proof (F a b Hab) as Fab. pose proof (paired_ne _ _ Hab) as Hne. rewrite !EW.
      assert (Hk' : forall m, paired n m -> 12 <= k).
      { intros m Hm. pose proof (pair_row n m k _ Hm Ex) as R. do 12 (destruct k as [|k]; [discriminate R|]). lia. }
      assert (Hq' : forall m, paired n m -> m <> q).
      { intros m Hm ->. specialize (Hk' _ Hm). pose proof (F n q Hm) as Fnq. assert (4 <= W q); [|lia]. unfold PF in Fnq. apply Fnq. lia. }
      assert (G : forall a b, paired a b -> PF (W a) (V a) (M a) (W b) (V b) (M b) -> a = n -> b <> q -> PF (S k) (V n) (M n) (W b) (V b) (M b)).
      { intros a' b' Hp' F' -> Hb'. rewrite Ek in F'. apply PF_adv; [|exact F']. specialize (Hk' _ Hp'). lia. }
      unfold upd. destruct (Nat.eqb_spec a n) as [Ea|Ea]; [subst a|]; [destruct (Nat.eqb_spec b n) as [|_]; [congruence|]; destruct (Nat.eqb_spec n q) as [|_]; [congruence|];
         destruct (Nat.eqb_spec b q) as [->|]; [exfalso; now apply (Hq' q Hab)|eapply G; eauto]|].
      destruct (Nat.eqb_spec b n) as [Eb|Eb]; [subst b|].
      * destruct (Nat.eqb_spec n q) as [|_]; [congruence|]. apply paired_sym in Hab. destruct (Nat.eqb_spec a q) as [->|]; [exfalso; now apply (Hq' q Hab)|].
        apply PF_sym. apply PF_sym in Fab. eapply G; eauto.
      * destruct (Nat.eqb_spec a q) as [->|]; [destruct (Nat.eqb_spec b q) as [|_]; [congruence|]; apply PF_sched with (1 := Hlow) in Fab; exact Fab|].
        destruct (Nat.eqb_spec b q) as [->|]; [|exact Fab]. apply PF_sym. apply PF_sym in Fab. apply PF_sched with (1 := Hlow) in Fab. exact Fab.
  - assert (Hk : k = 6 \/ k = 8) by (pose proof (pair_row n q k _ Hp Ex) as R; do 12 (destruct k as [|k]; [try discriminate R; tauto|]); destruct R as [? R]; discriminate R).
    constructor.
    + intros y. rewrite EW. unfold upd. destruct (Nat.eqb_spec y n) as [->|]; [|apply A1]. intros _. apply A1. lia.
    + intros y Hy. rewrite EW. unfold upd. apply A2 in Hy. destruct (Nat.eqb_spec y n) as [->|]; [lia|exact Hy].
    + assert (G : PF (S k) (V n) (M n) (W q) false (M q)).
      { pose proof (F n q Hp) as F'. rewrite Hv, Ek in F'. apply PF_pass; auto. }
      pose proof (paired_ne _ _ Hp) as Hne'.
      intros a b Hab. pose proof (F a b Hab) as Fab. pose proof (paired_ne _ _ Hab) as Hne. rewrite !EW. unfold upd.
      destruct (Nat.eqb_spec a n) as [Ea|Ea].
      * subst a. rewrite (paired_fun n b q Hab Hp) in *. rewrite Nat.eqb_refl. destruct (Nat.eqb_spec q n); [congruence|]. destruct (Nat.eqb_spec n q); [congruence|]. exact G.
      * destruct (Nat.eqb_spec b n) as [Eb|Eb].
        -- subst b. apply paired_sym in Hab. rewrite (paired_fun n a q Hab Hp) in *. rewrite Nat.eqb_refl. destruct (Nat.eqb_spec n q); [congruence|]. now apply PF_sym.
        -- destruct (Nat.eqb_spec a q) as [->|]; [exfalso; apply Eb; apply (paired_fun q b n Hab), paired_sym, Hp|].
           destruct (Nat.eqb_spec b q) as [->|]; [exfalso; apply Ea; apply (paired_inj a n q Hab Hp)|exact Fab].
  - assert (Hk : k = 6 \/ k = 8) by (pose proof (pair_row n q k _ Hp Ex) as R; do 12 (destruct k as [|k]; [try discriminate R; tauto|]); destruct R as [? R]; discriminate R).
    constructor.
    + intros y. rewrite EW. apply A1.
    + intros y Hy. rewrite EW. now apply A2.
    + assert (G : PF (W n) (V n) (M n) (W q) false (M q)).
      { pose proof (F n q Hp) as F'. rewrite Hv, Ek in F'. rewrite Ek. apply PF_loop; auto. intros Hw. apply A1 in Hw. lia. }
      pose proof (paired_ne _ _ Hp) as Hne'.
      intros a b Hab. pose proof (F a b Hab) as Fab. pose proof (paired_ne _ _ Hab) as Hne. rewrite !EW. unfold upd.
      destruct (Nat.eqb_spec a q) as [Ea|Ea].
      * subst a. destruct (Nat.eqb_spec b q); [congruence|]. rewrite (paired_fun q b n Hab (paired_sym _ _ Hp)) in *. now apply PF_sym.
      * destruct (Nat.eqb_spec b q) as [Eb|Eb]; [|exact Fab]. subst b. rewrite (paired_inj a n q Hab Hp) in *. exact G.
Qed.

(** *** Blocked and woken processes *)
Definition kinv (s : pstate) : Prop := forall i p q st, nth_error (procs s) i = Some p -> nth_error (prog (pnode p)) (ppos p) = Some (IWaitSib q st) ->
  (pw p = WBlocked -> st_ev s q = false) /\ (pw p = WWoken -> st_ev s q = true).
Lemma lset_nth {A} (l : list A) : forall i x j, nth_error (lset l i x) j = if Nat.eqb i j then match nth_error l i with Some _ => Some x | None => None end else nth_error l j.
Proof. induction l as [|y l IH]; intros [|i] x [|j]; cbn; auto. now destruct (Nat.eqb i j). Qed.
Lemma kinv_set s q st : kinv s -> kinv (set_state g fuel s q st).
Proof.
  intros K j p q' st' Hj Hx. cbn [set_state procs st_ev] in *. rewrite nth_error_map in Hj. destruct (nth_error (procs s) j) as [p0|] eqn:E; [|discriminate Hj]. injection Hj as <-.
  assert (Hn : pnode (wake g fuel q p0) = pnode p0 /\ ppos (wake g fuel q p0) = ppos p0) by (unfold wake; destruct (waits_on g fuel q p0); auto). destruct Hn as [Hn1 Hn2].
  rewrite Hn1, Hn2 in Hx. specialize (K j p0 q' st' E Hx). unfold wake, waits_on. rewrite Hx. unfold upd.
  destruct (pw p0) eqn:Ew; cbn; try (rewrite Ew; destruct (Nat.eqb q' q); split; (discriminate || reflexivity || apply K || auto)).
  rewrite (Nat.eqb_sym q q'). destruct (Nat.eqb q' q); cbn; [split; [discriminate|reflexivity]|]. rewrite Ew. split; [now apply K|discriminate].
Qed.
Lemma kinv_proc s i p : kinv s -> pw p = WRun -> kinv (set_proc s i p).
Proof.
  intros K Hp j p' q st Hj Hx. cbn [set_proc procs st_ev] in *. rewrite lset_nth in Hj. destruct (Nat.eqb i j).
  - destruct (nth_error (procs s) i); [|discriminate Hj]. injection Hj as <-. rewrite Hp. split; discriminate.
  - eapply K; eauto.
Qed.
Lemma wpos_lset s s' i n k o k' o' : NoDup (map knode (keys s)) -> nth_error (keys s) i = Some (n, k, o) -> keys s' = lset (keys s) i (n, k', o') ->
  forall y, wpos s' y = upd (wpos s) n k' y.
Proof. intros Hnd Hi Hk y. unfold wpos, upd. rewrite Hk, (pos_lset _ _ _ _ _ _ _ _ Hnd Hi). now destruct (Nat.eqb y n). Qed.
Lemma wpos_nth s i n k o : NoDup (map knode (keys s)) -> nth_error (keys s) i = Some (n, k, o) -> wpos s n = k.
Proof. intros Hnd Hi. unfold wpos. now rewrite (pos_nth _ _ _ _ _ Hnd Hi). Qed.
Lemma set_proc_keys s i p : keys (set_proc s i p) = lset (keys s) i (key_of p).
Proof. unfold PhaseRunProps.keys. cbn. apply lset_map. Qed.
Lemma set_state_keys s q st : keys (set_state g fuel s q st) = keys s.
Proof. unfold PhaseRunProps.keys. cbn. apply key_wake. Qed.
Lemma follows_nth s i p : inv2 g fuel root s -> nth_error (procs s) i = Some p -> follows (pnode p).
Proof.
  intros Hj Hi. apply (j_follows _ _ _ _ Hj). rewrite in_taken. left. unfold PhaseRunProps.keys. rewrite map_map. apply nth_error_In in Hi. now apply (in_map (fun x => knode (key_of x))) in Hi.
Qed.
Lemma nth_key s i p : nth_error (procs s) i = Some p -> nth_error (keys s) i = Some (key_of p).
Proof. intros H. unfold PhaseRunProps.keys. now rewrite nth_error_map, H. Qed.
Lemma not_done_yet s tr i n k o : inv g fuel root s tr -> nth_error (keys s) i = Some (n, k, o) -> k = 0 -> mst s n <> DONE.
Proof.
  intros [Ind _ _ _ Iev Im _ _ _] Hi -> Hd. apply Im in Hd. assert (In (ESet n DONE) (filter (of_node n) tr)) as Hf by (apply filter_In; split; [exact Hd|cbn; apply Nat.eqb_refl]).
  rewrite Iev, (pos_nth _ _ _ _ _ (nodup_nodes s Ind) Hi) in Hf. destruct Hf.
Qed.
Lemma step_e s tr l s' ev : inv g fuel root s tr -> inv2 g fuel root s -> kinv s -> stepo s l = Some (s', ev) ->
  kinv s' /\ estep (wpos s) (st_ev s) (mst s) (wpos s') (st_ev s') (mst s').
Proof.
  intros Hi Hj K Hs. assert (Hnn := nodup_nodes s (i_nodup _ _ _ _ _ Hi)).
  destruct l as [|i]; cbn [PhaseRunModel.stepo] in Hs.
  - destruct (hopper s) as [|n t] eqn:Eh; [discriminate Hs|]. injection Hs as <- <-.
    assert (Hnew : ~ In n (map knode (keys s))).
    { intros Hin. pose proof (i_nodup _ _ _ _ _ Hi) as Ind. unfold taken in Ind. rewrite Eh in Ind. cbn in Ind. apply NoDup_remove_2 in Ind. apply Ind. apply in_or_app. now left. }
    split.
    + intros j p q st Hp Hx. cbn [procs st_ev] in *. destruct (Nat.lt_ge_cases j (length (procs s))) as [Hl|Hl].
      * rewrite nth_error_app1 in Hp by exact Hl. eapply K; eauto.
      * rewrite nth_error_app2 in Hp by exact Hl. destruct (j - length (procs s)) as [|d]; [|destruct d; discriminate Hp]. injection Hp as <-. discriminate Hx.
    + apply e_same; try reflexivity. intros x. unfold wpos. replace (keys _) with (keys s ++ [(n, 0, @None nat)]) by (unfold PhaseRunProps.keys; cbn; now rewrite map_app).
      rewrite pos_app by exact Hnew. destruct (Nat.eqb_spec x n) as [->|]; [|reflexivity].
      destruct (pos_of (keys s) n) eqn:E; [|reflexivity]. exfalso. apply Hnew. unfold pos_of in E. destruct (find _ _) eqn:Ef; [|discriminate E]. apply find_some in Ef as [E1 E2]. apply Nat.eqb_eq in E2. rewrite E2. now apply in_map.
  - destruct (nth_error (procs s) i) as [p|] eqn:Ei; [|discriminate Hs]. assert (Hf := follows_nth _ _ _ Hj Ei). assert (Hk := nth_key _ _ _ Ei). destruct p as [n k [q|] w].
    + injection Hs as <- <-. split.
      * intros j p q' st Hp Hx. cbn [procs st_ev] in *. rewrite lset_nth, Ei in Hp. destruct (Nat.eqb i j); [|eapply K; eauto].
        injection Hp as <-. cbn [pnode ppos pw] in *. apply (K i _ q' st Ei Hx).
      * apply e_same; try reflexivity. intros x. rewrite (wpos_lset s _ i n k (Some q) k None Hnn Hk); [|unfold PhaseRunProps.keys; cbn [procs]; apply (lset_map key_of)].
        unfold upd. destruct (Nat.eqb_spec x n) as [->|]; [|reflexivity]. symmetry. eapply wpos_nth; eauto.
    + assert (Hw : wpos s n = k) by (eapply wpos_nth; eauto). cbn [pnode] in Hf. destruct (nth_error (prog n) k) as [x|] eqn:Ex; [|discriminate Hs].
      destruct (wait_paired n k x Hf Ex) as [N1 N2]. destruct x as [|st| | |q st| |q].
      * destruct (forallb (done_ev s) (preds g n)); [|discriminate Hs]. injection Hs as <- <-.
        assert (E0 := prog_wait _ _ _ _ Ex). destruct (Z.eqb_spec (mst s n) DONE) as [Ed|_]; [exfalso; eapply not_done_yet; eauto|].
        split; [now apply kinv_proc|]. eapply e_adv with (n := n); eauto; try discriminate. eapply wpos_lset; eauto. apply set_proc_keys.
      * injection Hs as <- <-. split; [apply kinv_set, kinv_proc; auto|]. eapply e_set with (n := n); eauto. eapply wpos_lset; eauto. rewrite set_state_keys. apply set_proc_keys.
      * injection Hs as <- <-. split; [now apply kinv_proc|]. eapply e_adv with (n := n); eauto; try discriminate. eapply wpos_lset; eauto. apply set_proc_keys.
      * injection Hs as <- <-. split; [now apply kinv_proc|]. eapply e_adv with (n := n); eauto; try discriminate. eapply wpos_lset; eauto. apply set_proc_keys.
      * destruct (N2 q st eq_refl) as (Hp & -> & Hk68). destruct (K i _ q EXECUTING Ei Ex) as [K1 K2]. cbn [pw] in *. destruct w.
        -- injection Hs as <- <-. split.
           ++ intros j p q' st Hjp Hx. cbn [set_proc procs st_ev] in *. rewrite lset_nth, Ei in Hjp. destruct (Nat.eqb i j); [|eapply K; eauto].
              injection Hjp as <-. cbn [pnode ppos pw] in *. rewrite Ex in Hx. injection Hx as <- <-. destruct (st_ev s q); split; (discriminate || reflexivity).
           ++ apply e_same; try reflexivity. intros x. rewrite (wpos_lset s _ i n k None k None Hnn Hk); [|rewrite set_proc_keys; reflexivity].
              unfold upd. destruct (Nat.eqb_spec x n) as [->|]; [|reflexivity]. now symmetry.
        -- discriminate Hs.
        -- specialize (K2 eq_refl). injection Hs as <- <-. set (p' := if (EXECUTING <=? mst s q)%Z then _ else _). split.
           ++ intros j p q' st Hjp Hx. cbn [procs st_ev] in *. rewrite lset_nth, Ei in Hjp. destruct (Nat.eqb_spec i j) as [->|Hne].
              ** injection Hjp as <-. assert (pw p' = WRun) as -> by (unfold p'; now destruct (_ <=? _)%Z). split; discriminate.
              ** assert (Hfp := follows_nth _ _ _ Hj Hjp). destruct (wait_paired _ _ _ Hfp Hx) as [_ N2']. destruct (N2' _ _ eq_refl) as (Hp' & _ & _).
                 specialize (K j p q' st Hjp Hx). unfold upd. destruct (Nat.eqb_spec q' q) as [->|]; [|exact K]. exfalso. apply Hne.
                 assert (pnode p = n) by (eapply paired_inj; eauto).
                 assert (Hkj := nth_key _ _ _ Hjp). apply (NoDup_nth_error (map knode (keys s))); [exact Hnn| |].
                 --- apply nth_error_Some. rewrite nth_error_map, Hk. discriminate.
                 --- rewrite !nth_error_map, Hk, Hkj. cbn. unfold knode. cbn. now rewrite H.
           ++ unfold p'. destruct (Z.leb_spec EXECUTING (mst s q)) as [Hm|Hm].
              ** eapply e_pass with (n := n); eauto. eapply wpos_lset; eauto. unfold PhaseRunProps.keys. cbn. now rewrite lset_map.
              ** eapply e_loop with (n := n); eauto. intros x. rewrite (wpos_lset s _ i n k None k None Hnn Hk); [|unfold PhaseRunProps.keys; cbn; now rewrite lset_map].
                 unfold upd. destruct (Nat.eqb_spec x n) as [->|]; [|reflexivity]. now symmetry.
      * now contradiction N1.
      * destruct (Z.ltb_spec (mst s q) SCHEDULED) as [Hq|Hq]; injection Hs as <- <-.
        -- split; [apply kinv_set, kinv_proc; auto|]. eapply e_sched with (n := n); eauto. eapply wpos_lset; eauto. rewrite set_state_keys. apply set_proc_keys.
        -- split; [now apply kinv_proc|]. eapply e_adv with (n := n); eauto; try discriminate. eapply wpos_lset; eauto. apply set_proc_keys.
Qed.
Record all (s : pstate) (tr : list pev) : Prop := All {
  l_inv : inv g fuel root s tr; l_inv2 : inv2 g fuel root s; l_kinv : kinv s; l_einv : einv (wpos s) (st_ev s) (mst s) }.
Lemma all_step s tr l s' ev : all s tr -> stepo s l = Some (s', ev) -> all s' (tr ++ ev).
Proof.
  intros [Hi Hj K F] E. destruct (step_e _ _ _ _ _ Hi Hj K E) as [K' E']. assert (A := step_astep _ _ _ _ _ _ E). constructor.
  - eapply inv_step; eauto.
  - eapply inv2_step; eauto.
  - exact K'.
  - eapply einv_step; eauto.
Qed.
Lemma all_init : all (pinit root) [].
Proof.
  constructor.
  - apply inv_init.
  - constructor; [intros k m j []|]. cbn. intros n [->|[]]. constructor.
  - intros [|i] p q st H; discriminate H.
  - constructor; cbn; try (intros; lia).
    + intros n H. exfalso. revert H. vm_compute. intros H. now apply H.
    + intros n m _. unfold PF. repeat split; try (intros; lia). all: intros; try reflexivity.
Qed.
Lemma all_run ls : all (fst (run_machine pstep (pinit root) ls)) (snd (run_machine pstep (pinit root) ls)).
Proof.
  refine (run_machine_inv pstep all _ ls (pinit root) [] all_init).
  intros s tr l H. unfold PhaseRunModel.pstep. destruct (stepo s l) as [[s' ev]|] eqn:E; cbn [fst snd]; [|now rewrite app_nil_r].
  eapply all_step; eauto.
Qed.

(** *** No deadlock *)
Lemma stuck_hopper s : stuck s -> hopper s = [].
Proof. intros H. specialize (H LRunner). cbn in H. now destruct (hopper s). Qed.
Lemma stuck_proc s i p : stuck s -> kinv s -> nth_error (procs s) i = Some p -> follows (pnode p) ->
  pput p = None /\ (length (prog (pnode p)) <= ppos p \/ (ppos p = 0 /\ exists q, In q (preds g (pnode p)) /\ done_ev s q = false) \/
                    exists q, paired (pnode p) q /\ st_ev s q = false /\ (ppos p = 6 \/ ppos p = 8)).
Proof.
  intros H K Ei Hf. specialize (H (LProc i)). cbn [PhaseRunModel.stepo] in H. rewrite Ei in H. destruct p as [n k [q|] w]; [discriminate H|]. cbn [pnode ppos pput] in *.
  split; [reflexivity|]. destruct (nth_error (prog n) k) as [x|] eqn:Ex; [|left; now apply nth_error_None].
  right. destruct (wait_paired n k x Hf Ex) as [N1 N2]. destruct x as [|st| | |q st| |q]; try discriminate H; try (now contradiction N1).
  - left. apply prog_wait in Ex. split; [exact Ex|]. destruct (forallb (done_ev s) (preds g n)) eqn:E; [discriminate H|].
    clear - E. induction (preds g n) as [|q l IH]; [discriminate E|]. cbn in E. destruct (done_ev s q) eqn:Eq; [|exists q; cbn; auto].
    destruct (IH E) as (r & Hr & Hd). exists r. cbn. auto.
  - right. destruct (N2 q st eq_refl) as (Hp & -> & Hk). destruct (K i _ q EXECUTING Ei Ex) as [K1 _]. destruct w; try discriminate H. exists q. auto.
  - destruct (mst s q <? SCHEDULED)%Z; discriminate H.
Qed.
(** If nothing can happen any more, then every node is done. *)
Theorem C59_progress ls : let s := fst (run_machine pstep (pinit root) ls) in
  stuck s -> forall n, follows n -> mst s n = DONE.
Proof.
  cbn zeta. intros Hst n. set (s := fst (run_machine pstep (pinit root) ls)) in *.
  destruct (all_run ls) as [Hi [J1 J2] K [A1 A2 F]]. fold s in Hi, J1, J2, K, A1, A2, F. set (tr := snd _) in Hi.
  assert (Hh := stuck_hopper s Hst).
  assert (Hnn := nodup_nodes s (i_nodup _ _ _ _ _ Hi)).
  assert (Hpp : forall k, In k (keys s) -> wpos s (knode k) = kpos k /\ kput k = None /\
     (length (prog (knode k)) <= kpos k \/ (kpos k = 0 /\ exists q, In q (preds g (knode k)) /\ done_ev s q = false) \/
      exists q, paired (knode k) q /\ st_ev s q = false /\ (kpos k = 6 \/ kpos k = 8))).
  { intros k Hk. pose proof Hk as Hk'. apply In_nth_error in Hk' as [j Ej]. destruct k as [[m k] o]. split; [eapply wpos_nth; eauto|].
    unfold PhaseRunProps.keys in Hk. apply in_map_iff in Hk as (p & Ep & Hp). apply In_nth_error in Hp as [i Ei].
    assert (Hf : follows (pnode p)) by (apply J2; rewrite in_taken; left; apply nth_key in Ei; apply nth_error_In, (in_map knode) in Ei; exact Ei).
    rewrite <- Ep. apply (stuck_proc s i p Hst K Ei Hf). }
  assert (Hpe : pends (keys s) = []).
  { unfold pends. clear - Hpp. induction (keys s) as [|k l IH]; [reflexivity|]. cbn. destruct (Hpp k (or_introl eq_refl)) as (_ & -> & _). apply IH. intros; apply Hpp. now right. }
  assert (Htk : forall m, In m (taken s) -> exists k, In k (keys s) /\ knode k = m).
  { intros m Hm. rewrite in_taken, Hh, Hpe in Hm. destruct Hm as [Hm|[[]|[]]]. apply in_map_iff in Hm as (k & E & Hk). eauto. }
  assert (Hfin : forall k, In k (keys s) -> length (prog (knode k)) <= kpos k -> mst s (knode k) = DONE).
  { intros k Hk Hlen. apply (i_mst _ _ _ _ _ Hi). destruct k as [[m k] o]. cbn [knode kpos fst snd] in *.
    assert (In (ESet m DONE) (filter (of_node m) tr)) as Hf.
    { rewrite (i_events _ _ _ _ _ Hi). apply In_nth_error in Hk as [i Ei]. rewrite (pos_nth _ _ _ _ _ Hnn Ei), (emitted_all _ _ m k Hlen), emit_prog.
      destruct (full_last g m) as [f ->]. apply in_or_app. right. now left. }
    now apply filter_In in Hf. }
  (* a node that is done has run to its end, or waits in the middle *)
  assert (Hrun : forall m, (forall q, In q (preds g m) -> mst s q = DONE) -> In m (taken s) ->
     exists k, In k (keys s) /\ knode k = m /\ wpos s m = kpos k /\ (length (prog m) <= kpos k \/ exists q, paired m q /\ st_ev s q = false /\ (kpos k = 6 \/ kpos k = 8))).
  { intros m Hpre Hm. destruct (Htk m Hm) as (k & Hk & <-). exists k. destruct (Hpp k Hk) as (Hw & _ & [Hl|[[_ (q & Hq & Hd)]|Hp]]); auto.
    exfalso. specialize (Hpre q Hq). apply (i_mst _ _ _ _ _ Hi) in Hpre. apply (i_done _ _ _ _ _ Hi) in Hpre. congruence. }
  induction n as [n IH] using (well_founded_induction (Wf_nat.well_founded_ltof _ rank)). unfold ltof in IH. intros Hf.
  assert (Hpre : forall m, follows m -> rank m <= rank n -> forall q, In q (preds g m) -> mst s q = DONE).
  { intros m Hm Hr q Hq. assert (Hlt : rank q < rank m) by (apply H_acyclic; now apply H_sym). apply IH; [lia|eapply H_closed; eauto]. }
  assert (Htak : forall m, follows m -> rank m <= rank n -> In m (taken s)).
  { intros m Hm Hr. destruct Hm as [|q m Hq Hs]; [apply (i_root _ _ _ _ _ Hi)|]. apply (i_taken _ _ _ _ _ Hi). right.
    assert (Hlt : rank q < rank m) by now apply H_acyclic.
    assert (Hqd : mst s q = DONE) by (apply IH; [lia|exact Hq]).
    assert (In q (taken s)) as Hqt by (apply (i_taken _ _ _ _ _ Hi); right; rewrite Hqd; vm_compute; discriminate).
    assert (Hqp : forall q', In q' (preds g q) -> mst s q' = DONE) by (intros q' Hq'; apply (Hpre q Hq); [lia|exact Hq']).
    destruct (Hrun q Hqp Hqt) as (k & Hk & <- & Hw & [Hlen|(q' & Hp & _ & Hk68)]).
    - assert (exists j, j < length (prog (knode k)) /\ nth_error (prog (knode k)) j = Some (ISched m)) as (j & Hj & Ej).
      { assert (In (ISched m) (prog (knode k))) as Hin.
        { unfold PhaseRunModel.prog. apply in_or_app. right. apply in_or_app. right. right. now apply in_map. }
        apply In_nth_error in Hin as [j Ej]. exists j. split; [apply nth_error_Some; congruence|exact Ej]. }
      apply (J1 k m j Hk); [lia|exact Ej].
    - exfalso. apply (i_mst _ _ _ _ _ Hi) in Hqd. destruct k as [[x k] o]. cbn [knode kpos fst snd] in *.
      assert (In (ESet x DONE) (filter (of_node x) tr)) as Hfi by (apply filter_In; split; [exact Hqd|cbn; apply Nat.eqb_refl]).
      rewrite (i_events _ _ _ _ _ Hi) in Hfi. apply In_nth_error in Hk as [i Ei]. rewrite (pos_nth _ _ _ _ _ Hnn Ei) in Hfi.
      unfold emitted in Hfi. rewrite (pair_prog _ _ Hp) in Hfi. destruct Hk68 as [-> | ->]; cbn in Hfi; intuition discriminate. }
  assert (Hlate : forall a b k, paired a b -> length (prog a) <= k -> 10 <= k).
  { intros a b k Hab Hl. rewrite (pair_prog _ _ Hab), app_length in Hl. cbn in Hl. lia. }
  destruct (Hrun n (Hpre n Hf (le_n _)) (Htak n Hf (le_n _))) as (k & Hk & En & Hw & [Hlen|(q & Hp & Hv & Hk68)]).
  - rewrite <- En in *. now apply Hfin.
  - exfalso. assert (Hr : rank q <= rank n) by (destruct Hp as (_ & _ & _ & _ & E & _); lia). assert (Hfq : follows q) by (destruct Hp as ((_ & E) & _); exact E).
    assert (Fnq := F n q Hp). rewrite <- Hw in Hk68.
    destruct (Hrun q (Hpre q Hfq Hr) (Htak q Hfq Hr)) as (k' & Hk' & En' & Hw' & [Hlen'|(q' & Hp' & Hv' & Hk68')]).
    + apply (Hlate _ _ _ (paired_sym _ _ Hp)) in Hlen'. rewrite <- Hw' in Hlen'. unfold PF in Fnq. rewrite Hv in Fnq.
      destruct Hk68 as [E|E]; rewrite E in Fnq.
      * assert (mst s q < EXECUTING)%Z by (apply Fnq; auto). assert (EXECUTING <= mst s q)%Z by (apply A1; lia). lia.
      * assert (false = true) by (apply Fnq; auto). discriminate.
    + rewrite (paired_fun _ _ _ Hp' (paired_sym _ _ Hp)) in *. rewrite <- Hw' in Hk68'. unfold PF in Fnq. rewrite Hv, Hv' in Fnq.
      assert (EXECUTING <= mst s q)%Z by (apply A1; lia). assert (EXECUTING <= mst s n)%Z by (apply A1; lia).
      destruct Hk68 as [E|E]; [assert (mst s q < EXECUTING)%Z by (apply Fnq; auto; lia); lia|].
      destruct Hk68' as [E'|E']; [assert (mst s n < EXECUTING)%Z by (apply Fnq; auto; lia); lia|].
      rewrite E, E' in Fnq. destruct Fnq as (_ & Fc & _). destruct (Fc eq_refl eq_refl); discriminate.
Qed.

(** *** Termination *)
Definition rkey : Type := nat * (nat * option nat * bool).
Definition rkey_of (p : proc) : rkey := (pnode p, (ppos p, pput p, match pw p with WRun => true | _ => false end)).
Definition rkeys (s : pstate) : list rkey := map rkey_of (procs s).
Definition cost (n : nat) (x : nat * option nat * bool) : nat :=
  10 * (length (prog n) - fst (fst x)) + match snd (fst x) with Some _ => 1 | None => 0 end + (if snd x then 1 else 0).
Definition weight (l : list rkey) (n : nat) : nat :=
  match find (fun k => Nat.eqb n (fst k)) l with Some k => cost n (snd k) | None => 10 * length (prog n) + 2 end.
Definition sum (f : nat -> nat) (l : list nat) : nat := fold_right plus 0 (map f l).
Definition total (nodes : list nat) (s : pstate) : nat := sum (weight (rkeys s)) nodes + 3 * sum (fun n => Nat.b2n (st_ev s n)) nodes.
Lemma sum_ext f h l : (forall m, In m l -> h m = f m) -> sum h l = sum f l.
Proof. unfold sum. induction l as [|x l IH]; intros H; cbn; [reflexivity|]. rewrite IH by (intros; apply H; now right). now rewrite (H x (or_introl eq_refl)). Qed.
Lemma sum_change f h l n : NoDup l -> In n l -> (forall m, m <> n -> h m = f m) -> sum h l + f n = sum f l + h n.
Proof.
  unfold sum. induction l as [|x l IH]; intros Hnd Hn H; [destruct Hn|]. inversion Hnd as [|? ? Hx Hl]; subst. cbn [map fold_right].
  destruct (Nat.eq_dec x n) as [->|Hne].
  - assert (fold_right plus 0 (map h l) = fold_right plus 0 (map f l)) by (apply (sum_ext f h l); intros m Hm; apply H; intros ->; auto). lia.
  - destruct Hn as [->|Hn]; [congruence|]. specialize (IH Hl Hn H). rewrite (H x Hne). lia.
Qed.
Lemma weight_lset l : forall i n x y m, NoDup (map fst l) -> nth_error l i = Some (n, x) ->
  weight (lset l i (n, y)) m = if Nat.eqb m n then cost n y else weight l m.
Proof.
  unfold weight. induction l as [|z l IH]; intros [|i] n x y m Hnd H; cbn [lset find nth_error map] in *; try discriminate; inversion Hnd as [|? ? Hy Hl]; subst.
  - injection H as ->. cbn [fst]. destruct (Nat.eqb_spec m n); [subst|]; reflexivity.
  - specialize (IH i n x y m Hl H). destruct (Nat.eqb_spec m (fst z)) as [->|E]; [|exact IH].
    destruct (Nat.eqb_spec (fst z) n) as [En|]; [|reflexivity].
    exfalso. apply Hy. rewrite En. apply nth_error_In in H. apply (in_map fst) in H. exact H.
Qed.
Lemma weight_nth l : forall i n x, NoDup (map fst l) -> nth_error l i = Some (n, x) -> weight l n = cost n x.
Proof.
  unfold weight. induction l as [|z l IH]; intros [|i] n x Hnd H; cbn [find nth_error map] in *; try discriminate; inversion Hnd as [|? ? Hy Hl]; subst.
  - injection H as ->. cbn [fst]. now rewrite Nat.eqb_refl.
  - destruct (Nat.eqb_spec n (fst z)) as [->|E]; [|eapply IH; eauto].
    exfalso. apply Hy. apply nth_error_In in H. apply (in_map fst) in H. exact H.
Qed.
Lemma weight_out l n : ~ In n (map fst l) -> weight l n = 10 * length (prog n) + 2.
Proof.
  unfold weight. intros H. destruct (find _ l) eqn:E; [|reflexivity]. apply find_some in E as [E1 E2]. apply Nat.eqb_eq in E2. exfalso. apply H. rewrite E2. now apply in_map.
Qed.
Lemma weight_app l n y m : ~ In n (map fst l) -> weight (l ++ [(n, y)]) m = if Nat.eqb m n then cost n y else weight l m.
Proof.
  unfold weight. induction l as [|z l IH]; intros H; cbn [app find map] in *.
  - cbn [fst]. destruct (Nat.eqb_spec m n) as [->|]; reflexivity.
  - destruct (Nat.eqb_spec m (fst z)) as [->|E]; [|apply IH; cbn in H; tauto]. destruct (Nat.eqb_spec (fst z) n) as [E2|]; [exfalso; apply H; now left|reflexivity].
Qed.
Lemma rkeys_nodes s : map fst (rkeys s) = map knode (keys s).
Proof. unfold rkeys, PhaseRunProps.keys. rewrite !map_map. reflexivity. Qed.
Lemma rkey_wake q l : map rkey_of (map (wake g fuel q) l) = map rkey_of l.
Proof. rewrite map_map. apply map_ext. intros [n k o w]. unfold wake, waits_on. cbn [pw pnode ppos]. destruct w; try reflexivity. destruct (nth_error (prog n) k) as [[]|]; try reflexivity. now destruct (Nat.eqb q q0). Qed.
Lemma rkeys_set_proc s i p : rkeys (set_proc s i p) = lset (rkeys s) i (rkey_of p).
Proof. unfold rkeys. cbn [set_proc procs]. apply (lset_map rkey_of). Qed.
Lemma rkeys_set_state s q st : rkeys (set_state g fuel s q st) = rkeys s.
Proof. unfold rkeys. cbn [set_state procs]. apply rkey_wake. Qed.
Section T.
Context (nodes : list nat) (H_nodup : NoDup nodes) (H_finite : forall n, follows n -> In n nodes).
Lemma ev_true s q : sum (fun n => Nat.b2n (upd (st_ev s) q true n)) nodes <= sum (fun n => Nat.b2n (st_ev s n)) nodes + 1.
Proof.
  destruct (in_dec Nat.eq_dec q nodes) as [Hq|Hq].
  - pose proof (sum_change (fun n => Nat.b2n (st_ev s n)) (fun n => Nat.b2n (upd (st_ev s) q true n)) nodes q H_nodup Hq) as H.
    cbv beta in H. rewrite upd_eq in H. cbn [Nat.b2n] in H. specialize (H ltac:(intros m Hm; now rewrite upd_neq)). lia.
  - rewrite (sum_ext (fun n => Nat.b2n (st_ev s n))); [lia|]. intros m Hm. rewrite upd_neq; [reflexivity|intros ->; auto].
Qed.
Lemma ev_false s q : In q nodes -> st_ev s q = true -> sum (fun n => Nat.b2n (upd (st_ev s) q false n)) nodes + 1 = sum (fun n => Nat.b2n (st_ev s n)) nodes.
Proof.
  intros Hq Hv. pose proof (sum_change (fun n => Nat.b2n (st_ev s n)) (fun n => Nat.b2n (upd (st_ev s) q false n)) nodes q H_nodup Hq) as H.
  cbv beta in H. rewrite upd_eq, Hv in H. cbn [Nat.b2n] in H. specialize (H ltac:(intros m Hm; now rewrite upd_neq)). lia.
Qed.
Lemma w_change s s' i n x y : NoDup (map fst (rkeys s)) -> In n nodes -> nth_error (rkeys s) i = Some (n, x) -> rkeys s' = lset (rkeys s) i (n, y) ->
  sum (weight (rkeys s')) nodes + cost n x = sum (weight (rkeys s)) nodes + cost n y.
Proof.
  intros Hnd Hn Hi E. pose proof (sum_change (weight (rkeys s)) (weight (rkeys s')) nodes n H_nodup Hn) as H.
  rewrite E in *. rewrite (weight_lset _ _ _ _ _ n Hnd Hi), Nat.eqb_refl, (weight_nth _ _ _ _ Hnd Hi) in H. apply H. intros m Hm. rewrite (weight_lset _ _ _ _ _ _ Hnd Hi). destruct (Nat.eqb_spec m n); [congruence|reflexivity].
Qed.
Lemma step_decreases s tr l s' ev : all s tr -> stepo s l = Some (s', ev) -> total nodes s' < total nodes s.
Proof.
  intros [Hi Hj K F] Hs. assert (Hnn := nodup_nodes s (i_nodup _ _ _ _ _ Hi)). pose proof Hnn as Hrn. rewrite <- rkeys_nodes in Hrn. unfold total.
  destruct l as [|i]; cbn [PhaseRunModel.stepo] in Hs.
  - destruct (hopper s) as [|n t] eqn:Eh; [discriminate Hs|]. injection Hs as <- <-. cbn [st_ev].
    assert (Hnew : ~ In n (map fst (rkeys s))).
    { rewrite rkeys_nodes. intros Hin. pose proof (i_nodup _ _ _ _ _ Hi) as Ind. unfold taken in Ind. rewrite Eh in Ind. cbn in Ind. apply NoDup_remove_2 in Ind. apply Ind. apply in_or_app. now left. }
    assert (Hn : In n nodes) by (apply H_finite, (j_follows _ _ _ _ Hj); rewrite in_taken, Eh; right; left; now left).
    set (s' := PState _ _ _ _ _). assert (E : rkeys s' = rkeys s ++ [(n, (0, None, true))]) by (unfold rkeys, s'; cbn [procs]; now rewrite map_app).
    pose proof (sum_change (weight (rkeys s)) (weight (rkeys s')) nodes n H_nodup Hn) as H. rewrite E in *.
    rewrite (weight_app _ _ _ n Hnew), Nat.eqb_refl, (weight_out _ _ Hnew) in H. unfold cost in H. cbn [fst snd] in H.
    assert (H' := H (fun m Hm => eq_trans (weight_app (rkeys s) n (0, None, true) m Hnew) (ltac:(destruct (Nat.eqb_spec m n); [congruence|reflexivity])))). lia.
  - destruct (nth_error (procs s) i) as [p|] eqn:Ei; [|discriminate Hs]. assert (Hf := follows_nth _ _ _ Hj Ei). assert (Hn := H_finite _ Hf).
    assert (Hr : nth_error (rkeys s) i = Some (rkey_of p)) by (unfold rkeys; now rewrite nth_error_map, Ei). assert (Hk := nth_key _ _ _ Ei).
    destruct p as [n k [q|] w]; cbn [pnode] in *.
    + injection Hs as <- <-. set (s' := PState _ _ _ _ _). pose proof (w_change s s' i n _ _ Hrn Hn Hr (lset_map rkey_of _ _ _)) as H. unfold cost in H. cbn [fst snd ppos pput pw] in H. change (st_ev s') with (st_ev s). lia.
    + destruct (nth_error (prog n) k) as [x|] eqn:Ex; [|discriminate Hs]. assert (Hlt : k < length (prog n)) by (apply nth_error_Some; congruence).
      destruct (wait_paired n k x Hf Ex) as [N1 N2].
      assert (Adv : forall o, sum (weight (rkeys (set_proc s i (Proc n (S k) o WRun)))) nodes + 8 <= sum (weight (rkeys s)) nodes).
      { intros o. pose proof (w_change s _ i n _ _ Hrn Hn Hr (rkeys_set_proc s i (Proc n (S k) o WRun))) as H. unfold cost in H. cbn [fst snd ppos pput pw] in H. destruct o, w; lia. }
      destruct x as [|st| | |q st| |q].
      * destruct (forallb (done_ev s) (preds g n)); [|discriminate Hs]. injection Hs as <- <-.
        destruct (Z.eqb_spec (mst s n) DONE) as [Ed|_]; [exfalso; eapply not_done_yet; eauto; eapply prog_wait; eauto|].
        specialize (Adv None). change (st_ev (set_proc s i (Proc n (S k) None WRun))) with (st_ev s). lia.
      * injection Hs as <- <-. rewrite rkeys_set_state. specialize (Adv None). cbn [set_state st_ev]. pose proof (ev_true (set_proc s i (Proc n (S k) None WRun)) n) as E. cbn [set_proc st_ev] in E |- *. lia.
      * injection Hs as <- <-. specialize (Adv None). change (st_ev (set_proc s i (Proc n (S k) None WRun))) with (st_ev s). lia.
      * injection Hs as <- <-. specialize (Adv None). change (st_ev (set_proc s i (Proc n (S k) None WRun))) with (st_ev s). lia.
      * destruct (N2 q st eq_refl) as (Hp & -> & Hk68). destruct (K i _ q EXECUTING Ei Ex) as [K1 K2]. cbn [pw] in *.
        assert (Hq : In q nodes) by (apply H_finite; destruct Hp as ((_ & E) & _); exact E). destruct w.
        -- injection Hs as <- <-. set (w' := if st_ev s q then WWoken else WBlocked).
           pose proof (w_change s _ i n _ _ Hrn Hn Hr (rkeys_set_proc s i (Proc n k None w'))) as H. unfold cost in H. cbn [fst snd ppos pput pw] in H.
           change (st_ev (set_proc s i (Proc n k None w'))) with (st_ev s). unfold w' in *. destruct (st_ev s q); lia.
        -- discriminate Hs.
        -- specialize (K2 eq_refl). injection Hs as <- <-. pose proof (ev_false s q Hq K2) as E. destruct (EXECUTING <=? mst s q)%Z.
           ++ specialize (Adv None). cbn [st_ev]. unfold rkeys in *. cbn [procs set_proc] in *. lia.
           ++ set (s' := PState _ _ _ _ _). pose proof (w_change s s' i n _ _ Hrn Hn Hr (lset_map rkey_of _ _ _)) as H. unfold cost in H. cbn [fst snd ppos pput pw] in H. unfold s' in *. cbn [st_ev] in *. lia.
      * now contradiction N1.
      * destruct (Z.ltb_spec (mst s q) SCHEDULED) as [Hq|Hq]; injection Hs as <- <-.
        -- rewrite rkeys_set_state. specialize (Adv (Some q)). cbn [set_state st_ev]. pose proof (ev_true (set_proc s i (Proc n (S k) (Some q) WRun)) q) as E. cbn [set_proc st_ev] in E |- *. lia.
        -- specialize (Adv None). change (st_ev (set_proc s i (Proc n (S k) None WRun))) with (st_ev s). lia.
Qed.
End T.
(** The number of effective steps in a schedule. *)
Fixpoint effective (s : pstate) (ls : list plab) : nat :=
  match ls with
  | [] => 0
  | l :: t => match stepo s l with Some (s', _) => S (effective s' t) | None => effective s t end
  end.
(** Phasing ends: the number of steps that do something is bounded, whatever the schedule. *)
Theorem C59_terminates nodes : (forall n, follows n -> In n nodes) -> exists bound, forall ls, effective (pinit root) ls <= bound.
Proof.
  intros H_fin. set (nn := nodup Nat.eq_dec nodes). assert (Hnd : NoDup nn) by apply NoDup_nodup. assert (Hfin : forall n, follows n -> In n nn) by (intros n Hn; apply nodup_In; auto).
  exists (total nn (pinit root)). intros ls.
  assert (G : forall ls s tr, all s tr -> effective s ls <= total nn s).
  { clear ls. induction ls as [|l ls IH]; intros s tr H; cbn [effective]; [lia|]. destruct (stepo s l) as [[s' ev]|] eqn:E; [|eauto].
    pose proof (step_decreases nn Hnd Hfin _ _ _ _ _ H E) as Hd. specialize (IH s' (tr ++ ev) (all_step _ _ _ _ _ H E)). lia. }
  apply (G ls (pinit root) []). apply all_init.
Qed.
End P.
Print Assumptions C59_progress.
Print Assumptions C59_terminates.

(** ** The standard phase graph *)
(** uvm_domain.py 93-190, uvm_phase.py 270-280: common (0), build .. final (1-9), the end of
    common (10), the domain uvm (11), its schedule (12), pre_reset .. post_shutdown (13-24),
    the end of the schedule (25) and of the domain (26). *)
Definition std_succs : list (list nat) :=
  [[1]; [2]; [3]; [4]; [5; 11]; [6]; [7]; [8]; [9]; [10]; []; [12]; [13]; [14]; [15]; [16]; [17]; [18]; [19]; [20]; [21]; [22]; [23]; [24]; [25]; [26]; [6]].
Definition std_preds : list (list nat) :=
  [[]; [0]; [1]; [2]; [3]; [4]; [5; 26]; [6]; [7]; [8]; [9]; [4]; [11]; [12]; [13]; [14]; [15]; [16]; [17]; [18]; [19]; [20]; [21]; [22]; [23]; [24]; [25]].
Definition std_rank : list nat := [0; 1; 2; 3; 4; 18; 21; 22; 23; 24; 25; 5; 6; 7; 8; 9; 10; 11; 12; 13; 14; 15; 16; 17; 18; 19; 20].
Definition std_graph : pgraph :=
  PGraph (fun n => nth n std_succs []) (fun n => nth n std_preds [])
    (fun n => ((1 <=? n) && (n <=? 9)) || ((13 <=? n) && (n <=? 24))) (fun n => (n =? 5) || ((13 <=? n) && (n <=? 24))) (fun n => n =? 9).
Notation rk := (fun n => nth n std_rank 0).
Lemma in_range (P : nat -> Prop) (b : nat -> bool) : (forall n, b n = true -> P n) -> forallb b (seq 0 27) = true -> forall n, n < 27 -> P n.
Proof. intros H Hb n Hn. rewrite forallb_forall in Hb. apply H, Hb, in_seq. lia. Qed.
Lemma std_out n : 27 <= n -> succs std_graph n = [] /\ preds std_graph n = [].
Proof. intros H. split; cbn [std_graph succs preds]; apply nth_overflow; cbn; lia. Qed.
Definition mem (l : list nat) (x : nat) : bool := existsb (Nat.eqb x) l.
Lemma mem_in l x : mem l x = true <-> In x l.
Proof. unfold mem. rewrite existsb_exists. split; [intros (y & Hy & E); apply Nat.eqb_eq in E; now subst|intros H; exists x; split; [exact H|apply Nat.eqb_refl]]. Qed.
Lemma std_edges n : n < 27 -> forall m, In m (succs std_graph n) -> m < 27 /\ In n (preds std_graph m) /\ rk n < rk m.
Proof.
  apply (in_range (fun n => forall m, In m (succs std_graph n) -> m < 27 /\ In n (preds std_graph m) /\ rk n < rk m)
    (fun n => forallb (fun m => (m <? 27) && mem (preds std_graph m) n && (rk n <? rk m)) (succs std_graph n))); [|vm_compute; reflexivity].
  intros k H m Hm. rewrite forallb_forall in H. specialize (H m Hm). rewrite !andb_true_iff, mem_in in H. rewrite Nat.ltb_lt in H. destruct H as [[H1 H2] H3]. apply Nat.ltb_lt in H3. auto.
Qed.
Lemma std_back n : n < 27 -> forall m, In m (preds std_graph n) -> m < 27 /\ In n (succs std_graph m).
Proof.
  apply (in_range (fun n => forall m, In m (preds std_graph n) -> m < 27 /\ In n (succs std_graph m))
    (fun n => forallb (fun m => (m <? 27) && mem (succs std_graph m) n) (preds std_graph n))); [|vm_compute; reflexivity].
  intros k H m Hm. rewrite forallb_forall in H. specialize (H m Hm). rewrite andb_true_iff, mem_in, Nat.ltb_lt in H. exact H.
Qed.
Lemma std_in n m : In m (succs std_graph n) -> n < 27.
Proof. intros H. destruct (Nat.lt_ge_cases n 27) as [|Hn]; [assumption|]. now rewrite (proj1 (std_out n Hn)) in H. Qed.
Lemma std_in' n m : In m (preds std_graph n) -> n < 27.
Proof. intros H. destruct (Nat.lt_ge_cases n 27) as [|Hn]; [assumption|]. now rewrite (proj2 (std_out n Hn)) in H. Qed.
Lemma std_follows n : follows std_graph 0 n <-> n < 27.
Proof.
  split.
  - induction 1 as [|n m _ IH H]; [lia|]. now apply (std_edges n IH).
  - assert (G : forall r n, rk n < r -> n < 27 -> follows std_graph 0 n).
    { induction r as [|r IH]; intros k Hr Hk; [lia|].
      assert (k = 0 \/ exists p, In p (preds std_graph k)) as [->|[p Hp]].
      { revert k Hk Hr. apply (in_range (fun k => rk k < S r -> k = 0 \/ exists p, In p (preds std_graph k)) (fun k => (k =? 0) || negb (match preds std_graph k with [] => true | _ => false end))); [|vm_compute; reflexivity].
        intros k H _. apply orb_true_iff in H as [H|H]; [left; now apply Nat.eqb_eq|right]. destruct (preds std_graph k) as [|p l]; [discriminate H|]. exists p. now left. }
      - constructor.
      - destruct (std_back k Hk p Hp) as [Hp1 Hp2]. apply (f_succ _ _ p); [|exact Hp2]. apply IH; [|exact Hp1]. destruct (std_edges p Hp1 k Hp2) as (_ & _ & E). lia. }
    intros H. eapply G; [apply Nat.lt_succ_diag_r|exact H].
Qed.
Lemma std_sym n m : In m (succs std_graph n) <-> In n (preds std_graph m).
Proof. split; intros H; [apply (std_edges n (std_in n m H) m H)|apply (std_back m (std_in' m n H) n H)]. Qed.
Lemma std_acyclic n m : In m (succs std_graph n) -> rk n < rk m.
Proof. intros H. apply (std_edges n (std_in n m H) m H). Qed.
Lemma std_closed n m : follows std_graph 0 n -> In m (preds std_graph n) -> follows std_graph 0 m.
Proof. rewrite !std_follows. intros Hn H. apply (std_back n Hn m H). Qed.
Lemma std_paired : paired std_graph 9 0 rk 5 24.
Proof. unfold paired. rewrite !std_follows. repeat split; try (vm_compute; reflexivity); try lia. Qed.
Lemma std_sib n : follows std_graph 0 n -> isnode std_graph n = true -> siblings std_graph 9 n = SOk [] \/ exists m, paired std_graph 9 0 rk n m.
Proof.
  rewrite std_follows. intros Hn Hi.
  assert (H : siblings std_graph 9 n = SOk [] \/ n = 5 \/ n = 24).
  { revert n Hn Hi. apply (in_range (fun n => isnode std_graph n = true -> siblings std_graph 9 n = SOk [] \/ n = 5 \/ n = 24)
      (fun n => negb (isnode std_graph n) || (match siblings std_graph 9 n with SOk [] => true | _ => false end) || (n =? 5) || (n =? 24))); [|vm_compute; reflexivity].
    intros n H Hi. rewrite Hi in H. cbn [negb orb] in H. rewrite !orb_true_iff, !Nat.eqb_eq in H.
    destruct H as [[H|H]|H]; auto. left. destruct (siblings std_graph 9 n) as [| |[|]]; try discriminate H. reflexivity. }
  destruct H as [H|[->| ->]]; [now left|right; exists 24; apply std_paired|right; exists 5; apply paired_sym, std_paired].
Qed.
(** The phases of the standard graph all complete, whatever the interleaving. *)
Theorem C59_standard_graph : 
  (forall ls, let s := fst (run_machine (pstep std_graph 9) (pinit 0) ls) in (forall l, stepo std_graph 9 s l = None) -> forall n, n <= 26 -> mst s n = DONE) /\
  exists bound, forall ls, effective std_graph 9 (pinit 0) ls <= bound.
Proof.
  split.
  - cbn zeta. intros ls Hst n Hn. apply (C59_progress std_graph 9 0 rk std_sym std_acyclic std_closed std_sib ls Hst). apply std_follows. lia.
  - apply (C59_terminates std_graph 9 0 rk std_closed std_sib (seq 0 27)). intros n Hn. apply std_follows in Hn. apply in_seq. lia.
Qed.
Print Assumptions C59_standard_graph.

(** ** Graphs that get stuck *)
Section R.
Context (g : pgraph) (fuel : nat).
Notation prog := (prog g fuel).
Notation stepo := (stepo g fuel).
(** Instruction [b] is still ahead of the process of [n], and its state is at most [lim]. *)
Definition ahead (n : nat) (b : instr) (lim : Z) (s : pstate) : Prop :=
  (forall p, In p (procs s) -> pnode p = n -> In b (skipn (ppos p) (prog n))) /\ (mst s n <= lim)%Z.
Lemma skipn_next {A} (l : list A) k x : nth_error l k = Some x -> skipn k l = x :: skipn (S k) l.
Proof. revert k. induction l as [|y l IH]; intros [|k] H; try discriminate H; [now injection H as ->|]. cbn [skipn]. now apply IH. Qed.
Lemma in_skipn {A} (l : list A) k x : In x (skipn k l) -> In x l.
Proof. revert k. induction l as [|y l IH]; intros [|k]; cbn; auto. intros H. right. eauto. Qed.
Lemma ahead_step n b lim s l s' ev :
  In b (prog n) -> (forall st k, nth_error (prog n) k = Some (ISet st) -> In b (skipn (S k) (prog n)) -> (st <= lim)%Z) -> (SCHEDULED <= lim < DONE)%Z ->
  (b = IFail \/ exists q st, b = IWaitSib q st /\ (mst s q < st)%Z) ->
  ahead n b lim s -> stepo s l = Some (s', ev) -> ahead n b lim s'.
Proof.
  intros Hb Hset Hlim Hblock [H1 H2] Hs.
  assert (Hwake : forall q p, pnode (wake g fuel q p) = pnode p /\ ppos (wake g fuel q p) = ppos p) by (intros q p; unfold wake; destruct (waits_on g fuel q p); auto).
  destruct l as [|i]; cbn [PhaseRunModel.stepo] in Hs.
  - destruct (hopper s) as [|m t]; [discriminate Hs|]. injection Hs as <- <-. split; [|exact H2]. cbn [procs]. intros p Hp Hn. apply in_app_or in Hp as [Hp|[<-|[]]]; [auto|]. exact Hb.
  - destruct (nth_error (procs s) i) as [[m k [q|] w]|] eqn:Ei; [| |discriminate Hs]; assert (Hin := nth_error_In _ _ Ei).
    + injection Hs as <- <-. split; [|exact H2]. cbn [procs]. intros p Hp Hn. apply lset_in in Hp as [->|Hp]; [|auto]. cbn [pnode ppos] in *. apply (H1 _ Hin Hn).
    + destruct (nth_error (prog m) k) as [x|] eqn:Ex; [|discriminate Hs].
      assert (Hadv : m = n -> x <> b -> In b (skipn (S k) (prog n))).
      { intros -> Hx. pose proof (H1 _ Hin eq_refl) as H. cbn [ppos] in H. rewrite (skipn_next _ _ _ Ex) in H. destruct H as [H|H]; [congruence|exact H]. }
      assert (Hnext : forall o s0, (m = n -> x <> b) -> (mst s0 n <= lim)%Z -> procs s0 = lset (procs s) i (Proc m (S k) o WRun) -> ahead n b lim s0).
      { intros o s0 Hx Hm Hps. split; [|exact Hm]. rewrite Hps. intros p Hp Hn. apply lset_in in Hp as [->|Hp]; [|auto]. cbn [pnode ppos] in *. apply Hadv; auto. }
      assert (Hstate : forall s0 q st, ahead n b lim s0 -> (q = n -> (st <= lim)%Z) -> ahead n b lim (set_state g fuel s0 q st)).
      { intros s0 q st [G1 G2] G. split.
        - cbn [set_state procs]. intros p Hp Hn. apply in_map_iff in Hp as (p0 & <- & Hp0). destruct (Hwake q p0) as [E1 E2]. rewrite E2. apply G1; [exact Hp0|congruence].
        - cbn [set_state mst]. unfold upd. destruct (Nat.eqb_spec n q) as [->|]; auto. }
      destruct x as [|st| | |q st| |q].
      * destruct (forallb (done_ev s) (preds g m)); [|discriminate Hs]. injection Hs as <- <-.
        assert (Hx : m = n -> IWaitPreds <> b) by (intros _ <-; destruct Hblock as [E|(q & st & E & _)]; discriminate E).
        destruct (Z.eqb_spec (mst s m) DONE) as [Ed|_]; [|eapply Hnext; eauto; reflexivity].
        split; [|exact H2]. cbn [set_proc procs]. intros p Hp Hn. apply lset_in in Hp as [->|Hp]; [|auto]. cbn [pnode] in Hn. subst m. exfalso. lia.
      * injection Hs as <- <-. assert (Hx : m = n -> ISet st <> b) by (intros _ <-; destruct Hblock as [E|(q & st' & E & _)]; discriminate E).
        apply Hstate; [eapply Hnext; eauto; reflexivity|]. intros ->. eapply Hset; eauto.
      * injection Hs as <- <-. assert (Hx : m = n -> IExec <> b) by (intros _ <-; destruct Hblock as [E|(q & st' & E & _)]; discriminate E). eapply Hnext; eauto; reflexivity.
      * injection Hs as <- <-. assert (Hx : m = n -> IBody <> b) by (intros _ <-; destruct Hblock as [E|(q & st' & E & _)]; discriminate E). eapply Hnext; eauto; reflexivity.
      * destruct w.
        -- injection Hs as <- <-. split; [|exact H2]. cbn [set_proc procs]. intros p Hp Hn. apply lset_in in Hp as [->|Hp]; [|auto]. cbn [pnode ppos] in *. apply (H1 _ Hin Hn).
        -- discriminate Hs.
        -- injection Hs as <- <-. destruct (Z.leb_spec st (mst s q)) as [E|E].
           ++ eapply Hnext; eauto; [|reflexivity]. intros _ <-. destruct Hblock as [E'|(q' & st' & E' & Hlt)]; [discriminate E'|]. injection E' as <- <-. lia.
           ++ split; [|exact H2]. cbn [procs]. intros p Hp Hn. apply lset_in in Hp as [->|Hp]; [|auto]. cbn [pnode ppos] in *. apply (H1 _ Hin Hn).
      * discriminate Hs.
      * assert (Hx : m = n -> ISched q <> b) by (intros _ <-; destruct Hblock as [E|(q' & st' & E & _)]; discriminate E).
        destruct (mst s q <? SCHEDULED)%Z; injection Hs as <- <-; [apply Hstate; [eapply Hnext; eauto; reflexivity|intros; lia]|eapply Hnext; eauto; reflexivity].
Qed.
Lemma ahead_init n b lim root : (SCHEDULED <= lim)%Z -> ahead n b lim (pinit root).
Proof. intros H. split; [intros p []|]. cbn. pose proof SCv. unfold DORMANT. lia. Qed.
(** Two real phases without objections that are siblings never end. *)
Lemma fun_prog n l : isnode g n = true -> istask g n = false -> siblings g fuel n = SOk l ->
  prog n = ([IWaitPreds; ISet SYNCING; ISet STARTED; ISet EXECUTING; IExec] ++ map (fun q => IWaitSib q READY_TO_END) l) ++ [ISet ENDED; ISet CLEANUP; ISet DONE] ++ map ISched (succs g n).
Proof. intros H1 H2 H3. unfold PhaseRunModel.prog, sibwait. rewrite H1, H2, H3. cbn [app]. now rewrite <- !app_assoc. Qed.
Lemma skipn_app_in (l1 l2 : list instr) k x b : In b (skipn k (l1 ++ l2)) -> ~ In b l2 -> nth_error (l1 ++ l2) k = Some x -> In x l1.
Proof.
  intros H Hn Hx. destruct (Nat.lt_ge_cases k (length l1)) as [Hl|Hl].
  - rewrite nth_error_app1 in Hx by exact Hl. eapply nth_error_In; eauto.
  - exfalso. apply Hn. rewrite skipn_app, skipn_all2 in H by exact Hl. cbn in H. eapply in_skipn; eauto.
Qed.
Theorem C59_function_siblings_deadlock n m ln lm root ls :
  (isnode g n = true /\ istask g n = false /\ siblings g fuel n = SOk ln /\ In m ln) ->
  (isnode g m = true /\ istask g m = false /\ siblings g fuel m = SOk lm /\ In n lm) ->
  let s := fst (run_machine (pstep g fuel) (pinit root) ls) in (mst s n <= EXECUTING)%Z /\ (mst s m <= EXECUTING)%Z.
Proof.
  cbn zeta. intros (N1 & N2 & N3 & N4) (M1 & M2 & M3 & M4).
  assert (Hb : forall a la b, isnode g a = true -> istask g a = false -> siblings g fuel a = SOk la -> In b la ->
     In (IWaitSib b READY_TO_END) (prog a) /\ (forall st k, nth_error (prog a) k = Some (ISet st) -> In (IWaitSib b READY_TO_END) (skipn (S k) (prog a)) -> (st <= EXECUTING)%Z)).
  { intros a la b A1 A2 A3 A4. rewrite (fun_prog a la A1 A2 A3). split.
    - apply in_or_app. left. apply in_or_app. right. now apply (in_map (fun q => IWaitSib q READY_TO_END)).
    - intros st k Hk Hin.
      assert (Hin' : In (IWaitSib b READY_TO_END) (skipn k (([IWaitPreds; ISet SYNCING; ISet STARTED; ISet EXECUTING; IExec] ++ map (fun q => IWaitSib q READY_TO_END) la) ++ [ISet ENDED; ISet CLEANUP; ISet DONE] ++ map ISched (succs g a)))).
      { rewrite (skipn_next _ _ _ Hk). now right. }
      assert (Hx := skipn_app_in _ _ _ _ _ Hin' ltac:(cbn [app In]; rewrite in_map_iff; intros [E|[E|[E|(q & E & _)]]]; discriminate E) Hk).
      cbn [app In] in Hx. repeat (destruct Hx as [Hx|Hx]; [try discriminate Hx; injection Hx as <-; vm_compute; discriminate|]). apply in_map_iff in Hx as (q & E & _). discriminate E. }
  destruct (Hb n ln m N1 N2 N3 N4) as [Bn Sn]. destruct (Hb m lm n M1 M2 M3 M4) as [Bm Sm].
  assert (L : (SCHEDULED <= EXECUTING < DONE)%Z) by (vm_compute; split; [discriminate|reflexivity]).
  assert (G : ahead n (IWaitSib m READY_TO_END) EXECUTING (fst (run_machine (pstep g fuel) (pinit root) ls)) /\ ahead m (IWaitSib n READY_TO_END) EXECUTING (fst (run_machine (pstep g fuel) (pinit root) ls))).
  { refine (run_machine_inv (pstep g fuel) (fun s (_ : list pev) => ahead n (IWaitSib m READY_TO_END) EXECUTING s /\ ahead m (IWaitSib n READY_TO_END) EXECUTING s) _ ls (pinit root) [] _).
    - intros s tr l [Gn Gm]. unfold PhaseRunModel.pstep. destruct (stepo s l) as [[s' ev]|] eqn:E; cbn [fst snd]; [|auto].
      assert (HX : (EXECUTING < READY_TO_END)%Z) by reflexivity.
      split; eapply ahead_step; eauto; right; eexists _, _; (split; [reflexivity|]); [apply Z.le_lt_trans with (2 := HX), Gm|apply Z.le_lt_trans with (2 := HX), Gn].
    - split; apply ahead_init; lia. }
  split; apply G.
Qed.
(** A real phase whose siblings cannot be computed never ends. *)
Theorem C59_key_error_deadlock n root ls : isnode g n = true -> siblings g fuel n = SKeyErr ->
  (mst (fst (run_machine (pstep g fuel) (pinit root) ls)) n <= READY_TO_END)%Z.
Proof.
  intros H1 H2.
  assert (Hb : In IFail (prog n) /\ forall st k, nth_error (prog n) k = Some (ISet st) -> In IFail (skipn (S k) (prog n)) -> (st <= READY_TO_END)%Z).
  { assert (exists l1, In IFail l1 /\ (forall st, In (ISet st) l1 -> (st <= READY_TO_END)%Z) /\ prog n = l1 ++ [ISet ENDED; ISet CLEANUP; ISet DONE] ++ map ISched (succs g n)) as (l1 & I1 & I2 & ->).
    { unfold PhaseRunModel.prog, sibwait. rewrite H1, H2. destruct (istask g n).
      - exists [IWaitPreds; ISet SYNCING; ISet STARTED; ISet EXECUTING; IExec; IBody; IFail; ISet READY_TO_END; IFail]. cbn [In app]. split; [tauto|]. split; [|reflexivity].
        intros st Hx. repeat (destruct Hx as [Hx|Hx]; [try discriminate Hx; injection Hx as <-; vm_compute; discriminate|]). contradiction.
      - exists [IWaitPreds; ISet SYNCING; ISet STARTED; ISet EXECUTING; IExec; IFail]. cbn [In app]. split; [tauto|]. split; [|reflexivity].
        intros st Hx. repeat (destruct Hx as [Hx|Hx]; [try discriminate Hx; injection Hx as <-; vm_compute; discriminate|]). contradiction. }
    split; [apply in_or_app; now left|]. intros st k Hk Hin. apply I2.
    assert (Hin' : In IFail (skipn k (l1 ++ [ISet ENDED; ISet CLEANUP; ISet DONE] ++ map ISched (succs g n)))) by (rewrite (skipn_next _ _ _ Hk); now right).
    apply (skipn_app_in _ _ _ _ _ Hin'); [|exact Hk]. cbn [app In]. rewrite in_map_iff. intros [E|[E|[E|(q & E & _)]]]; discriminate E. }
  destruct Hb as [B S]. assert (L : (SCHEDULED <= READY_TO_END < DONE)%Z) by (vm_compute; split; [discriminate|reflexivity]).
  assert (G : ahead n IFail READY_TO_END (fst (run_machine (pstep g fuel) (pinit root) ls))).
  { refine (run_machine_inv (pstep g fuel) (fun s (_ : list pev) => ahead n IFail READY_TO_END s) _ ls (pinit root) [] _).
    - intros s tr l Gn. unfold PhaseRunModel.pstep. destruct (stepo s l) as [[s' ev]|] eqn:E; cbn [fst snd]; [|auto]. eapply ahead_step; eauto.
    - apply ahead_init; lia. }
  apply G.
Qed.
End R.
Print Assumptions C59_function_siblings_deadlock.
Print Assumptions C59_key_error_deadlock.

(** Three parallel task phases can wait for each other for ever: the process that is waiting
    for a state change clears the event that another one still needs. *)
Definition three : pgraph :=
  PGraph (fun n => nth n [[1; 2; 3]; [4]; [4]; [4]; [5]; []] []) (fun n => nth n [[]; [0]; [0]; [0]; [1; 2; 3]; [4]] [])
    (fun n => (1 <=? n) && (n <=? 4)) (fun n => (1 <=? n) && (n <=? 3)) (fun n => n =? 4).
Definition three_schedule : list plab :=
  let A := repeat (LProc 1) in let B := repeat (LProc 2) in let C := repeat (LProc 3) in
  LRunner :: repeat (LProc 0) 12 ++ [LRunner; LRunner; LRunner] ++ A 9 ++ B 6 ++ A 4 ++ B 3 ++ C 6 ++ A 1 ++ B 1 ++ A 1 ++ B 1 ++ C 4 ++ A 1 ++ B 1 ++ C 2.
Theorem C59_three_tasks_deadlock : let s := fst (run_machine (pstep three 9) (pinit 0) three_schedule) in
  (forall l, stepo three 9 s l = None) /\ mst s 1 = READY_TO_END /\ mst s 2 = READY_TO_END /\ mst s 3 = READY_TO_END /\ mst s 4 = DORMANT.
Proof.
  cbn zeta. split; [|vm_compute; auto]. intros [|i]; [vm_compute; reflexivity|]. do 4 (destruct i as [|i]; [vm_compute; reflexivity|]).
  assert (nth_error (procs (fst (run_machine (pstep three 9) (pinit 0) three_schedule))) (4 + i) = None) as E.
  { apply nth_error_None. replace (length (procs _)) with 4 by (vm_compute; reflexivity). lia. }
  cbn [PhaseRunModel.stepo]. change (S (S (S (S i)))) with (4 + i). now rewrite E.
Qed.
Example C59_example : let s := fst (run_machine (pstep std_graph 9) (pinit 0) (flat_map (fun _ => LRunner :: map LProc (seq 0 27)) (seq 0 300))) in
  forallb (fun n => (mst s n =? DONE)%Z) (seq 0 27) = true.
Proof. vm_compute. reflexivity. Qed.
(** Two parallel function phases, and a last phase that is not called final. *)
Definition two : pgraph :=
  PGraph (fun n => nth n [[1; 2]; [3]; [3]; []] []) (fun n => nth n [[]; [0]; [0]; [1; 2]] []) (fun n => (1 <=? n) && (n <=? 3)) (fun _ => false) (fun n => n =? 9).
Example C59_deadlock_example : (siblings two 9 1 = SOk [2] /\ siblings two 9 2 = SOk [1]) /\ siblings two 9 3 = SKeyErr.
Proof. vm_compute. auto. Qed.
Example C58_example : In (ESet 6 STARTED) (happened std_graph 9 0 (flat_map (fun _ => LRunner :: map LProc (seq 0 27)) (seq 0 300))) /\ preds std_graph 6 = [5; 26].
Proof.
  split; [|reflexivity]. set (l := happened _ _ _ _). assert (H : existsb (fun e => match e with ESet n st => (n =? 6) && (st =? STARTED)%Z | _ => false end) l = true) by (vm_compute; reflexivity).
  clearbody l.
  apply existsb_exists in H as (e & He & E). destruct e as [n st| |]; try discriminate E. apply andb_true_iff in E as [E1 E2]. apply Nat.eqb_eq in E1. apply Z.eqb_eq in E2. now subst.
Qed.
Print Assumptions C59_three_tasks_deadlock.
