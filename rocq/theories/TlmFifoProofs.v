From Coq Require Import ZArith List Bool Arith Lia.
From Verif Require Import Prelude MailboxModel MailboxSpec MailboxProofs TlmFifoModel TlmFifoSpec.
Import ListNotations.

Section Proofs.
Context {A : Type}.

Lemma f_accepted_app (a b : list (fout A)) : f_accepted (a ++ b) = f_accepted a ++ f_accepted b.
Proof. apply flat_map_app. Qed.
Lemma f_removed_app (a b : list (fout A)) : f_removed (a ++ b) = f_removed a ++ f_removed b.
Proof. apply flat_map_app. Qed.
Lemma on_put_ap_app (a b : list (fout A)) : on_put_ap (a ++ b) = on_put_ap a ++ on_put_ap b.
Proof. apply flat_map_app. Qed.
Lemma on_get_ap_app (a b : list (fout A)) : on_get_ap (a ++ b) = on_get_ap a ++ on_get_ap b.
Proof. apply flat_map_app. Qed.

(** Facts about a state and a trace that every FIFO operation preserves. *)
Definition FInv (n : Z) (f : fifo A) : Prop := Inv n (fm f) /\ fsize f = n.

Definition FStepOk (n : Z) (q0 : list A) (r : fifo A * list (fout A)) : Prop :=
  FInv n (fst r) /\
  q0 ++ f_accepted (snd r) = f_removed (snd r) ++ queue (fm (fst r)) /\
  on_put_ap (snd r) = f_accepted (snd r) /\
  ~ In FFuel (snd r).

Definition blocking_ap (e : mout A) : list (fout A) :=
  match e with
     | OAccepted p x => [FM e; FPutAp x]
     | ODelivered p x => [FM e; FGetAp x]
     | _ => [FM e] end.

Lemma ap_accepted o : f_accepted (flat_map blocking_ap o) = accepted o.
Proof. induction o as [|e o IH]; auto. cbn [flat_map]. rewrite f_accepted_app, IH. now destruct e. Qed.
Lemma ap_removed o : f_removed (flat_map blocking_ap o) = delivered o.
Proof. induction o as [|e o IH]; auto. cbn [flat_map]. rewrite f_removed_app, IH. now destruct e. Qed.
Lemma ap_put o : on_put_ap (flat_map blocking_ap o) = accepted o.
Proof. induction o as [|e o IH]; auto. cbn [flat_map]. rewrite on_put_ap_app, IH. now destruct e. Qed.
Lemma ap_get o : on_get_ap (flat_map blocking_ap o) = delivered o.
Proof. induction o as [|e o IH]; auto. cbn [flat_map]. rewrite on_get_ap_app, IH. now destruct e. Qed.
Lemma ap_fuel o : ~ In (@FFuel A) (flat_map blocking_ap o).
Proof.
  induction o as [|e o IH]; cbn; auto. rewrite in_app_iff. intros [H|H]; auto.
  destruct e; cbn in H; intuition discriminate.
Qed.

Lemma after_blocking_ok n f g l :
  FInv n f -> fsize g = n -> fm g = fm f ->
  FStepOk n (queue (fm f)) (after_blocking g (mstep (fm f) l)) /\
  on_get_ap (snd (after_blocking g (mstep (fm f) l))) =
  f_removed (snd (after_blocking g (mstep (fm f) l))).
Proof.
  intros [HI Hs] Hg Hm. destruct (mstep_ok 0 n (fm f) l HI) as (H1 & H2 & H3 & H4).
  destruct (mstep (fm f) l) as [m o]. cbn [fst snd] in *.
  unfold after_blocking. cbn [fst snd].
  change (flat_map _ o) with (flat_map blocking_ap o).
  unfold FStepOk, FInv. cbn [fst snd fm fsize].
  rewrite ap_accepted, ap_removed, ap_put, ap_get.
  split; [split; [|split; [|split]]|]; auto. apply ap_fuel.
Qed.

Lemma ftry_get_cases (f : fifo A) p t :
  (exists x q m, queue (fm f) = x :: q /\ queue m = q /\ m = set_read (set_queue (fm f) q) /\
     ftry_get f p t = (mkFifo m (fsize f) (pending_gets f),
        [FM (ODelivered p x); FGetAp (hd x t)], t ++ [x], true)) \/
  (queue (fm f) = [] /\
     ftry_get f p t = (mkFifo (fm f) (fsize f) (pending_gets f), [FM (OTryFail p)], t, false)).
Proof.
  unfold ftry_get, try_get.
  destruct (can_get (fm f)) eqn:Hc.
  - apply can_get_iff in Hc. destruct (queue (fm f)) as [|x q] eqn:Hq; [easy|].
    left. exists x, q, (set_read (set_queue (fm f) q)). repeat split.
    destruct t; reflexivity.
  - apply can_get_false in Hc. right. split; auto.
Qed.

Lemma ftry_get_ok n f p t :
  FInv n f ->
  FStepOk n (queue (fm f)) (fst (fst (fst (ftry_get f p t))), snd (fst (fst (ftry_get f p t)))).
Proof.
  intros [HI Hs]. destruct (ftry_get_cases f p t) as [(x & q & m & Hq & Hm & Em & E)|[Hq E]];
    rewrite E; cbn [fst snd].
  - unfold FStepOk, FInv. cbn [fst snd fm fsize]. split; [split|split; [|split]]; auto.
    + subst m. now apply (inv_pop n (fm f) x).
    + cbn. now rewrite app_nil_r, Hq, Hm.
    + cbn. intuition discriminate.
  - unfold FStepOk, FInv. cbn [fst snd fm fsize]. split; [split|split; [|split]]; auto.
    + cbn. now rewrite app_nil_r.
    + cbn. intuition discriminate.
Qed.

Lemma fstepok_trans n q0 f1 o1 f2 o2 :
  FStepOk n q0 (f1, o1) -> FStepOk n (queue (fm f1)) (f2, o2) ->
  FStepOk n q0 (f2, o1 ++ o2).
Proof.
  intros (A1 & A2 & A3 & A4) (B1 & B2 & B3 & B4). cbn [fst snd] in *.
  split; [|split; [|split]]; cbn [fst snd]; auto.
  - now rewrite f_accepted_app, f_removed_app, app_assoc, A2, <- !app_assoc, B2.
  - now rewrite on_put_ap_app, f_accepted_app, A3, B3.
  - rewrite in_app_iff. tauto.
Qed.

Lemma flush_loop_ok n k : forall f p t, FInv n f -> length (queue (fm f)) < k ->
  FStepOk n (queue (fm f)) (flush_loop k f p t) /\
  queue (fm (fst (flush_loop k f p t))) = [].
Proof.
  induction k as [|k IH]; intros f p t HI Hk; [lia|].
  cbn [flush_loop]. pose proof (ftry_get_ok n f p t HI) as Ht.
  destruct (ftry_get_cases f p t) as [(x & q & m & Hq & Hm & Em & E)|[Hq E]];
    rewrite E in *; cbn [fst snd] in Ht.
  - destruct (IH _ p (t ++ [x]) (proj1 Ht)) as [H1 H2].
    { cbn [fst fm]. rewrite Hm. rewrite Hq in Hk. cbn in Hk. lia. }
    cbn [fst fm] in *. destruct (flush_loop k _ p (t ++ [x])) as [f2 o2].
    cbn [fst] in *. split; auto. eapply fstepok_trans; eauto.
  - cbn [fst fm]. split; auto.
Qed.

Lemma flush_ok n f p : FInv n f ->
  FStepOk n (queue (fm f)) (flush f p) /\ queue (fm (fst (flush f p))) = [] /\
  ~ In FFlushError (snd (flush f p)).
Proof.
  intros HI. unfold flush.
  destruct (flush_loop_ok n (S (length (queue (fm f)))) f p [] HI ltac:(lia)) as [H1 H2].
  remember (S (length (queue (fm f)))) as k. clear Heqk.
  assert (H3 : forall (g : fifo A) t, ~ In FFlushError (snd (flush_loop k g p t))).
  { clear. induction k as [|k IH]; intros g t; cbn [flush_loop].
    - cbn. intuition discriminate.
    - destruct (ftry_get_cases g p t) as [(x & q & m & Hq & Hm & Em & E)|[Hq E]]; rewrite E.
      + specialize (IH (mkFifo m (fsize g) (pending_gets g)) (t ++ [x])).
        destruct (flush_loop k _ p (t ++ [x])). cbn in *. intuition discriminate.
      + cbn. intuition discriminate. }
  specialize (H3 f []).
  destruct (flush_loop k f p []) as [f1 o]. cbn [fst snd] in *.
  assert (Hn : num (fm f1) = 0%Z) by (rewrite num_nonempty, H2; reflexivity).
  rewrite Hn. cbn. auto.
Qed.

Lemma idle_fok n f : FInv n f -> FStepOk n (queue (fm f)) (f, []).
Proof. intros H. unfold FStepOk. cbn. rewrite app_nil_r. split; auto. Qed.

Lemma fstep_ok n f l : FInv n f -> FStepOk n (queue (fm f)) (fstep f l).
Proof.
  intros HI. destruct l as [p op|p]; cbn [fstep].
  - destruct (procs (fm f) p); try now apply idle_fok.
    destruct op as [x| | |x|t| |]; try (apply after_blocking_ok; auto; apply HI).
    + pose proof (ftry_get_ok n f p t HI) as H. destruct (ftry_get f p t) as [[[f1 o] t'] b]. exact H.
    + now destruct (flush_ok n f p HI) as [H _].
  - apply after_blocking_ok; auto; apply HI.
Qed.

Definition FGood (n : Z) (f : fifo A) (tr : list (fout A)) : Prop :=
  FInv n f /\ f_accepted tr = f_removed tr ++ queue (fm f) /\
  on_put_ap tr = f_accepted tr /\ ~ In FFuel tr.

Lemma fgood_step n f tr l : FGood n f tr -> FGood n (fst (fstep f l)) (tr ++ snd (fstep f l)).
Proof.
  intros (H1 & H2 & H3 & H4). destruct (fstep_ok n f l H1) as (G1 & G2 & G3 & G4).
  split; [|split; [|split]]; auto.
  - now rewrite f_accepted_app, f_removed_app, H2, <- app_assoc, G2, app_assoc.
  - now rewrite on_put_ap_app, f_accepted_app, H3, G3.
  - rewrite in_app_iff. tauto.
Qed.

Lemma finv_init n : FInv n (fifo_init n).
Proof. split; [|reflexivity]. apply (proj1 (good_init 0 n)). Qed.

Lemma fgood_run n ls : FGood n (fst (@frun A n ls)) (snd (frun n ls)).
Proof.
  apply (run_machine_inv fstep (FGood n) (fgood_step n) ls (fifo_init n) []).
  split; [apply finv_init|]. cbn. auto.
Qed.

Lemma fifo_order n ls :
  f_accepted (snd (@frun A n ls)) = f_removed (snd (frun n ls)) ++ queue (fm (fst (frun n ls))).
Proof. apply (fgood_run n ls). Qed.

Lemma put_ap_exact n ls : on_put_ap (snd (@frun A n ls)) = f_accepted (snd (frun n ls)).
Proof. apply (fgood_run n ls). Qed.

Lemma fstep_plain_get n f l : FInv n f -> plain_label l ->
  on_get_ap (snd (fstep f l)) = f_removed (snd (fstep f l)).
Proof.
  intros HI Hl. destruct l as [p op|p]; cbn [fstep].
  - destruct (procs (fm f) p); try reflexivity.
    destruct op as [x| | |x|t| |]; try (eapply after_blocking_ok; eauto; apply HI).
    + cbn in Hl. subst t. destruct (ftry_get_cases f p []) as [(x & q & m & Hq & Hm & Em & E)|[Hq E]];
      rewrite E; reflexivity.
    + destruct Hl.
  - eapply after_blocking_ok; eauto; apply HI.
Qed.

Lemma get_ap_plain n ls : Forall plain_label ls ->
  on_get_ap (snd (@frun A n ls)) = f_removed (snd (frun n ls)).
Proof.
  intros Hls.
  refine (proj2 (run_machine_inv_ok fstep plain_label
    (fun f tr => FInv n f /\ on_get_ap tr = f_removed tr) _ ls (fifo_init n) [] Hls _)).
  - intros f tr l Hl [HI Ht]. split; [apply (fstep_ok n f l HI)|].
    rewrite on_get_ap_app, f_removed_app, Ht. now rewrite (fstep_plain_get n f l HI Hl).
  - split; [apply finv_init|reflexivity].
Qed.

Lemma flush_empties n ls p :
  procs (fm (fst (@frun A n ls))) p = Idle ->
  queue (fm (fst (fstep (fst (frun n ls)) (FCall p FFlush)))) = [].
Proof.
  intros Hp. cbn [fstep]. rewrite Hp.
  now destruct (flush_ok n (fst (frun n ls)) p (proj1 (fgood_run n ls))) as (_ & H & _).
Qed.

(** Number of items that get_ap sees is always right, even with flush. *)
Lemma ftry_get_count f p t :
  length (on_get_ap (snd (fst (fst (@ftry_get A f p t))))) =
  length (f_removed (snd (fst (fst (ftry_get f p t))))).
Proof.
  destruct (ftry_get_cases f p t) as [(x & q & m & Hq & Hm & Em & E)|[Hq E]]; rewrite E; reflexivity.
Qed.

Lemma flush_loop_count k : forall f p t,
  length (on_get_ap (snd (@flush_loop A k f p t))) = length (f_removed (snd (flush_loop k f p t))).
Proof.
  induction k as [|k IH]; intros f p t; cbn [flush_loop]; auto.
  destruct (ftry_get_cases f p t) as [(x & q & m & Hq & Hm & Em & E)|[Hq E]]; rewrite E.
  - specialize (IH (mkFifo m (fsize f) (pending_gets f)) p (t ++ [x])).
    destruct (flush_loop k _ p (t ++ [x])). cbn [snd] in *.
    rewrite on_get_ap_app, f_removed_app, !app_length, IH. reflexivity.
  - reflexivity.
Qed.

Lemma fstep_count n f l : FInv n f ->
  length (on_get_ap (snd (fstep f l))) = length (f_removed (snd (fstep f l))).
Proof.
  intros HI. destruct l as [p op|p]; cbn [fstep].
  - destruct (procs (fm f) p); try reflexivity.
    destruct op as [x| | |x|t| |]; try (f_equal; eapply after_blocking_ok; eauto; apply HI).
    + pose proof (ftry_get_count f p t) as H. destruct (ftry_get f p t) as [[[f1 o] t'] b]. exact H.
    + unfold flush. pose proof (flush_loop_count (S (length (queue (fm f)))) f p []) as H.
      destruct (flush_loop _ f p []) as [f1 o]. cbn [snd] in H.
      destruct (_ && _); cbn [snd]; auto.
      rewrite on_get_ap_app, f_removed_app, !app_length, H. reflexivity.
  - f_equal; eapply after_blocking_ok; eauto; apply HI.
Qed.

Lemma get_ap_count n ls :
  length (on_get_ap (snd (@frun A n ls))) = length (f_removed (snd (frun n ls))).
Proof.
  refine (proj2 (run_machine_inv fstep
    (fun f tr => FInv n f /\ length (on_get_ap tr) = length (f_removed tr)) _ ls (fifo_init n) [] _)).
  - intros f tr l [HI Ht]. split; [apply (fstep_ok n f l HI)|].
    now rewrite on_get_ap_app, f_removed_app, !app_length, Ht, (fstep_count n f l HI).
  - split; [apply finv_init|reflexivity].
Qed.

(** What flush writes to get_ap. *)
Lemma flush_loop_ap k : forall f p y t, length (queue (fm f)) < k -> on_get_ap (snd (@flush_loop A k f p (y :: t))) = repeat y (length (queue (fm f))).
Proof.
  induction k as [|k IH]; intros f p y t Hk; [lia|]. cbn [flush_loop].
  destruct (ftry_get_cases f p (y :: t)) as [(x & q & m & Hq & Hm & Em & E)|[Hq E]]; rewrite E.
  - specialize (IH (mkFifo m (fsize f) (pending_gets f)) p y (t ++ [x])). cbn [app] in *. cbn [fm] in IH. rewrite Hm in IH. rewrite Hq in *. cbn [length] in Hk. specialize (IH ltac:(lia)).
    destruct (flush_loop k _ p (y :: t ++ [x])) as [f2 o2]. cbn [snd] in *. change (y :: on_get_ap o2 = y :: repeat y (length q)). now rewrite IH.
  - rewrite Hq. reflexivity.
Qed.
Lemma flush_ap n ls p x q : procs (fm (fst (@frun A n ls))) p = Idle -> queue (fm (fst (frun n ls))) = x :: q ->
  f_removed (snd (fstep (fst (frun n ls)) (FCall p FFlush))) = x :: q /\
  on_get_ap (snd (fstep (fst (frun n ls)) (FCall p FFlush))) = repeat x (S (length q)).
Proof.
  intros Hp Hq. cbn [fstep]. rewrite Hp. pose proof (proj1 (fgood_run n ls)) as HI. set (f := fst (frun n ls)) in *.
  destruct (flush_ok n f p HI) as ((_ & H2 & _ & _) & H3 & H4). split.
  - rewrite H3, app_nil_r in H2. rewrite <- H2, Hq. assert (Ha : f_accepted (snd (flush f p)) = []); [|rewrite Ha; apply app_nil_r].
    clear H2 H3 H4. unfold flush.
    assert (G : forall k f t, f_accepted (snd (@flush_loop A k f p t)) = []).
    { clear. induction k as [|k IH]; intros f t; cbn [flush_loop]; [reflexivity|]. destruct (ftry_get_cases f p t) as [(x & q & m & Hq & Hm & Em & E)|[Hq E]]; rewrite E; [|reflexivity].
      specialize (IH (mkFifo m (fsize f) (pending_gets f)) (t ++ [x])). destruct (flush_loop k _ p (t ++ [x])). cbn [snd] in *. rewrite f_accepted_app, IH. reflexivity. }
    specialize (G (S (length (queue (fm f)))) f []). destruct (flush_loop _ f p []) as [f1 o]. destruct (_ && _); cbn [snd] in *; [rewrite f_accepted_app, G|]; auto.
  - unfold flush. rewrite Hq. cbn [length].
    assert (U : flush_loop (S (S (length q))) f p [] = (let '(f1, o, t', res) := ftry_get f p [] in if res then let '(f2, o2) := flush_loop (S (length q)) f1 p t' in (f2, o ++ o2) else (f1, o))) by reflexivity.
    rewrite U. destruct (ftry_get_cases f p []) as [(x' & q' & m & Hq' & Hm & Em & E)|[Hq' E]]; [|congruence]. rewrite E.
    rewrite Hq in Hq'. injection Hq' as <- <-. cbn [app].
    pose proof (flush_loop_ap (S (length q)) (mkFifo m (fsize f) (pending_gets f)) p x [] ltac:(cbn [fm]; rewrite Hm; lia)) as Hl. cbn [fm] in Hl. rewrite Hm in Hl.
    destruct (flush_loop (S (length q)) _ p [x]) as [f2 o2]. cbn [snd] in Hl. destruct (_ && _); cbn [snd].
    + rewrite on_get_ap_app. change (x :: on_get_ap o2 ++ [] = x :: repeat x (length q)). now rewrite Hl, app_nil_r.
    + change (x :: on_get_ap o2 = x :: repeat x (length q)). now rewrite Hl.
Qed.
Lemma try_get_ap (f : fifo A) p x q t : procs (fm f) p = Idle -> queue (fm f) = x :: q ->
  on_get_ap (snd (fstep f (FCall p (FTryGet t)))) = [hd x t] /\ f_removed (snd (fstep f (FCall p (FTryGet t)))) = [x].
Proof.
  intros Hp Hq. cbn [fstep]. rewrite Hp. destruct (ftry_get_cases f p t) as [(x' & q' & m & Hq' & Hm & Em & E)|[Hq' E]]; [|congruence].
  rewrite E. rewrite Hq in Hq'. injection Hq' as <- <-. destruct t; split; reflexivity.
Qed.

(** ** status functions *)
Lemma is_empty_iff (f : fifo A) : is_empty f = true <-> queue (fm f) = [].
Proof.
  unfold is_empty. rewrite num_nonempty. destruct (queue (fm f)); cbn; split; easy.
Qed.

Lemma can_peek_iff (f : fifo A) : fcan_peek f = true <-> queue (fm f) <> [].
Proof.
  unfold fcan_peek. rewrite num_nonempty. destruct (queue (fm f)); cbn; split; easy.
Qed.

Lemma can_get_sound (f : fifo A) p t : fcan_get f = true ->
  snd (ftry_get f p t) = true.
Proof.
  unfold fcan_get. rewrite num_nonempty.
  destruct (ftry_get_cases f p t) as [(x & q & m & Hq & Hm & Em & E)|[Hq E]]; rewrite E; auto.
  rewrite Hq. cbn. easy.
Qed.

Lemma can_get_complete (f : fifo A) p t : pending_gets f = 0%Z ->
  snd (ftry_get f p t) = true -> fcan_get f = true.
Proof.
  unfold fcan_get. rewrite num_nonempty. intros ->.
  destruct (ftry_get_cases f p t) as [(x & q & m & Hq & Hm & Em & E)|[Hq E]]; rewrite E; cbn [snd]; try easy.
  now rewrite Hq.
Qed.

Lemma size01_queue n ls : n = 1%Z -> 
  (length (queue (fm (fst (@frun A n ls)))) <= 1)%nat.
Proof.
  intros ->. destruct (fgood_run 1 ls) as [[HI _] _].
  pose proof (inv_bound _ _ HI ltac:(lia)). lia.
Qed.

Lemma fsize_run n ls : fsize (fst (@frun A n ls)) = n /\ max_size (fm (fst (frun n ls))) = n.
Proof. destruct (fgood_run n ls) as [[HI Hs] _]. split; auto. apply (inv_max _ _ HI). Qed.

Lemma is_full_size01 n ls : n = 0%Z \/ n = 1%Z ->
  let f := fst (@frun A n ls) in
  is_full f = true <-> (n <> 0%Z /\ Z.of_nat (length (queue (fm f))) = n).
Proof.
  intros Hn f. destruct (fsize_run n ls) as [Hs _]. fold f in Hs.
  unfold is_full. rewrite Hs, num_nonempty. destruct Hn as [->| ->].
  - cbn. split; [easy|]. intros [H _]. easy.
  - pose proof (size01_queue 1 ls eq_refl) as Hq. fold f in Hq.
    destruct (queue (fm f)) as [|x [|y q]]; cbn in *; try lia; split; try easy; intros [_ H]; lia.
Qed.

Lemma can_put_size01 n ls x p : n = 0%Z \/ n = 1%Z ->
  let f := fst (@frun A n ls) in
  fcan_put f = true <-> In (OAccepted p x) (snd (try_put (fm f) p x)).
Proof.
  intros Hn f. destruct (fsize_run n ls) as [Hs Hm]. fold f in Hs, Hm.
  unfold fcan_put, try_put, can_put. rewrite Hs, Hm, num_nonempty. destruct Hn as [->| ->].
  - cbn. tauto.
  - pose proof (size01_queue 1 ls eq_refl) as Hq. fold f in Hq.
    destruct (queue (fm f)) as [|y [|z q]]; cbn in *; try lia; split; auto; intros H; try easy.
    destruct H as [H|[]]; discriminate.
Qed.
Lemma size_large n ls : (2 <= n)%Z -> let f := fst (@frun A n ls) in is_full f = false /\ fcan_put f = true /\ used f = Z.min 1 (Z.of_nat (length (queue (fm f)))).
Proof.
  intros Hn f. destruct (fsize_run n ls) as [Hs _]. fold f in Hs. unfold is_full, fcan_put, used. rewrite Hs, num_nonempty.
  destruct (queue (fm f)) as [|x q]; cbn [length Nat.eqb]; (split; [apply andb_false_iff; right; apply Z.eqb_neq; lia|]); (split; [apply orb_true_iff; right; apply Z.ltb_lt; lia|]); lia.
Qed.

(** pending_gets counts the processes that are in get(). *)
Definition getting (s : pstate A) : bool := match s with WaitGet | WokenGet => true | _ => false end.
Definition Counted (k : Z) (m : mbox A) : Prop :=
  exists l, NoDup l /\ (forall p, In p l <-> getting (procs m p) = true) /\ k = Z.of_nat (length l).
Lemma counted_same k (m m' : mbox A) : (forall q, getting (procs m' q) = getting (procs m q)) -> Counted k m -> Counted k m'.
Proof. intros E (l & N & I & K). exists l. repeat split; auto; intros; [rewrite E|rewrite E in *]; now apply I. Qed.
Lemma counted_enter k (m m' : mbox A) p : getting (procs m p) = false -> getting (procs m' p) = true ->
  (forall q, q <> p -> getting (procs m' q) = getting (procs m q)) -> Counted k m -> Counted (k + 1) m'.
Proof.
  intros E1 E2 E (l & N & I & K). exists (p :: l). split; [|split].
  - constructor; auto. intros X. apply I in X. congruence.
  - intros q. cbn. destruct (Nat.eq_dec q p) as [->|NE]; [tauto|]. rewrite E, <- I by auto. split; [intros [X|X]; [congruence|exact X]|auto].
  - cbn [length]. lia.
Qed.
Lemma remove_length p (l : list nat) : NoDup l -> In p l -> S (length (remove Nat.eq_dec p l)) = length l.
Proof.
  induction l as [|q l IH]; intros N I; [destruct I|]. inversion N as [|? ? H1 H2]; subst. cbn [remove length].
  destruct (Nat.eq_dec p q) as [->|NE]; [now rewrite notin_remove|]. cbn [length]. f_equal. apply IH; auto. destruct I as [->|I]; [contradiction|auto].
Qed.
Lemma NoDup_remove_one p (l : list nat) : NoDup l -> NoDup (remove Nat.eq_dec p l).
Proof.
  induction 1 as [|q l H N IH]; cbn; [constructor|]. destruct (Nat.eq_dec p q); auto. constructor; auto. intros X. apply in_remove in X. tauto.
Qed.
Lemma counted_leave k (m m' : mbox A) p : getting (procs m p) = true -> getting (procs m' p) = false ->
  (forall q, q <> p -> getting (procs m' q) = getting (procs m q)) -> Counted k m -> Counted (k - 1) m'.
Proof.
  intros E1 E2 E (l & N & I & K). exists (remove Nat.eq_dec p l). assert (IP : In p l) by now apply I. split; [|split].
  - now apply NoDup_remove_one.
  - intros q. destruct (Nat.eq_dec q p) as [->|NE].
    + split; [intros X; now apply remove_In in X|congruence].
    + rewrite E, <- I by auto. split; [intros X; now apply in_remove in X|intros X; now apply in_in_remove].
  - pose proof (remove_length p l N IP). lia.
Qed.
Lemma get_wake_read s : getting (wake_read s) = getting s. Proof. now destruct s. Qed.
Lemma get_wake_write s : getting (wake_write s) = getting s. Proof. now destruct s. Qed.

(** What a step of the mailbox does to the processes in get(). *)
Lemma proc_at (m : mbox A) p s q : getting (procs (set_proc m p s) q) = if Nat.eqb q p then getting s else getting (procs m q).
Proof. cbn. destruct (Nat.eqb_spec q p) as [->|NE]; [now rewrite upd_eq|now rewrite upd_neq]. Qed.
Lemma put_loop_getting (m : mbox A) p x q : getting (procs m p) = false ->
  getting (procs (fst (put_loop m p x)) q) = getting (procs m q) /\ delivered (snd (put_loop m p x)) = [].
Proof.
  intros H. unfold put_loop, put_tail. destruct (can_put m).
  - cbn [fst snd]. split; [|reflexivity]. rewrite proc_at. destruct (Nat.eqb_spec q p) as [->|NE]; [now rewrite H|apply get_wake_write].
  - cbn [read_flag clear_read fst snd]. split; [|reflexivity]. rewrite proc_at. destruct (Nat.eqb_spec q p) as [->|NE]; [now rewrite H|reflexivity].
Qed.
Lemma get_loop_getting (m : mbox A) p :
  ((exists x, snd (get_loop m p) = [ODelivered p x] /\ getting (procs (fst (get_loop m p)) p) = false) \/
             snd (get_loop m p) = [] /\ getting (procs (fst (get_loop m p)) p) = true) /\
  forall q, q <> p -> getting (procs (fst (get_loop m p)) q) = getting (procs m q).
Proof.
  unfold get_loop, get_tail, can_get. destruct (queue m) as [|y l] eqn:EQ; cbn [length]; cbn -[set_proc getting].
  - split; [|intros q NE; rewrite proc_at; destruct (Nat.eqb_spec q p); congruence || reflexivity].
    right. split; [reflexivity|]. rewrite proc_at, Nat.eqb_refl. reflexivity.
  - split; [|intros q NE; rewrite proc_at; destruct (Nat.eqb_spec q p); [congruence|apply get_wake_read]].
    left. exists y. split; [reflexivity|]. rewrite proc_at, Nat.eqb_refl. reflexivity.
Qed.
Lemma peek_getting (m : mbox A) p q : getting (procs m p) = false ->
  (getting (procs (fst (peek_start m p)) q) = getting (procs m q) /\ delivered (snd (peek_start m p)) = []) /\
  (getting (procs (fst (peek_tail m p)) q) = getting (procs m q) /\ delivered (snd (peek_tail m p)) = []).
Proof.
  intros H.
  assert (P : forall m1, getting (procs m1 p) = false ->
    (getting (procs (fst (peek_tail m1 p)) q) = getting (procs m1 q) /\ delivered (snd (peek_tail m1 p)) = [])).
  { intros m1 H1. unfold peek_tail. cbn [fst snd]. split; [|reflexivity]. rewrite proc_at. destruct (Nat.eqb_spec q p) as [->|NE]; [now rewrite H1|reflexivity]. }
  split; [|now apply P]. unfold peek_start. destruct (can_get m); [now apply P|]. cbn [write_flag clear_write fst snd]. split; [|reflexivity].
  rewrite proc_at. destruct (Nat.eqb_spec q p) as [->|NE]; [now rewrite H|reflexivity].
Qed.
Lemma try_put_getting (m : mbox A) p x q : getting (procs (fst (try_put m p x)) q) = getting (procs m q) /\ delivered (snd (try_put m p x)) = [].
Proof. unfold try_put. destruct (can_put m); cbn; split; auto. apply get_wake_write. Qed.
Lemma try_get_getting (m : mbox A) p q : getting (procs (fst (try_get m p)) q) = getting (procs m q).
Proof. unfold try_get. destruct (can_get m); [|reflexivity]. destruct (queue m); [reflexivity|]. apply get_wake_read. Qed.

Lemma ftry_get_pending (f : fifo A) p t : let f' := fst (fst (fst (ftry_get f p t))) in
  pending_gets f' = pending_gets f /\ forall q, getting (procs (fm f') q) = getting (procs (fm f) q).
Proof.
  cbn zeta. pose proof (try_get_getting (fm f) p) as H. unfold ftry_get. destruct (try_get (fm f) p) as [m o]. cbn [fst] in H.
  destruct o as [|e [|e' o]]; [split; auto| |destruct e; split; auto]. destruct e; try (split; now auto).
  destruct (t ++ [x]); split; auto.
Qed.
Lemma flush_loop_pending k : forall (f : fifo A) p t, let f' := fst (flush_loop k f p t) in
  pending_gets f' = pending_gets f /\ forall q, getting (procs (fm f') q) = getting (procs (fm f) q).
Proof.
  induction k as [|k IH]; intros f p t; cbn [flush_loop]; [split; reflexivity|].
  pose proof (ftry_get_pending f p t) as H. destruct (ftry_get f p t) as [[[f1 o] t'] r]. cbn [fst] in H. destruct r; [|exact H].
  pose proof (IH f1 p t') as H2. destruct (flush_loop k f1 p t') as [f2 o2]. cbn [fst] in *. destruct H as [H H'], H2 as [H2 H2'].
  split; [congruence|]. intros q. now rewrite H2'.
Qed.
Lemma fold_delivered (o : list (mout A)) k : delivered o = [] ->
  fold_left (fun n e => match e with ODelivered _ _ => (n - 1)%Z | _ => n end) o k = k.
Proof.
  revert k. induction o as [|e o IH]; intros k H; [reflexivity|]. cbn in *. destruct e; try discriminate; now apply IH.
Qed.
Lemma after_pending (f : fifo A) r : delivered (snd r) = [] -> (forall q, getting (procs (fst r) q) = getting (procs (fm f) q)) ->
  Counted (pending_gets f) (fm f) -> Counted (pending_gets (fst (after_blocking f r))) (fm (fst (after_blocking f r))).
Proof.
  destruct r as [m o]. cbn [fst snd]. intros D E C. unfold after_blocking. cbn [fst snd pending_gets fm]. rewrite fold_delivered by auto.
  now apply (counted_same _ (fm f)).
Qed.
Lemma delivered_cons_offered p (x : A) o : delivered (OOffered p x :: o) = delivered o. Proof. reflexivity. Qed.
Lemma fstep_pending (f : fifo A) l : Counted (pending_gets f) (fm f) ->
  Counted (pending_gets (fst (fstep f l))) (fm (fst (fstep f l))).
Proof.
  intros C. destruct l as [p op|p]; cbn [fstep].
  - destruct (procs (fm f) p) eqn:EP; try exact C.
    assert (G0 : getting (procs (fm f) p) = false) by now rewrite EP.
    destruct op; cbn [mstep]; rewrite ?EP.
    + pose proof (put_loop_getting (fm f) p x) as H. destruct (put_loop (fm f) p x) as [m o]. cbn [fst snd] in H.
      apply after_pending; cbn [fst snd]; [rewrite delivered_cons_offered; now apply (H p)|intros q; now apply H|exact C].
    + destruct (get_loop_getting (fm f) p) as [[(x & H1 & H2)|[H1 H2]] H3]; destruct (get_loop (fm f) p) as [m o]; cbn [fst snd] in *; subst o;
        unfold after_blocking; cbn [fold_left pending_gets fst snd fm].
      * replace (pending_gets f + 1 - 1)%Z with (pending_gets f) by lia. apply (counted_same _ (fm f)); auto.
        intros q. destruct (Nat.eq_dec q p) as [->|NE]; [congruence|auto].
      * now apply (counted_enter _ (fm f) m p).
    + pose proof (peek_getting (fm f) p) as H. apply after_pending; [now apply (H p)|intros q; now apply H|exact C].
    + pose proof (try_put_getting (fm f) p x) as H. destruct (try_put (fm f) p x) as [m o]. cbn [fst snd] in H.
      apply after_pending; cbn [fst snd]; [rewrite delivered_cons_offered; now apply (H p)|intros q; now apply H|exact C].
    + pose proof (ftry_get_pending f p t) as [H H']. destruct (ftry_get f p t) as [[[f1 o] t'] r]. cbn [fst] in *. rewrite H. now apply (counted_same _ (fm f)).
    + unfold try_peek. destruct (can_get (fm f)); apply after_pending; auto.
    + unfold flush. pose proof (flush_loop_pending (S (length (queue (fm f)))) f p []) as [H H'].
      destruct (flush_loop _ f p []) as [f1 o]. cbn [fst] in *. destruct (_ && _); cbn [fst]; rewrite H; now apply (counted_same _ (fm f)).
  - cbn [mstep]. destruct (procs (fm f) p) eqn:EP; try (apply after_pending; now auto).
    + assert (G0 : getting (procs (clear_read (fm f)) p) = false) by (cbn; now rewrite EP).
      pose proof (put_loop_getting (clear_read (fm f)) p x) as H. apply after_pending; [now apply (H p)|intros q; now apply H|exact C].
    + assert (G0 : getting (procs (fm f) p) = true) by now rewrite EP.
      destruct (get_loop_getting (clear_write (fm f)) p) as [[(x & H1 & H2)|[H1 H2]] H3]; destruct (get_loop (clear_write (fm f)) p) as [m o]; cbn [fst snd] in *; subst o;
        unfold after_blocking; cbn [fold_left pending_gets fst snd fm].
      * now apply (counted_leave _ (fm f) m p).
      * apply (counted_same _ (fm f)); auto. intros q. destruct (Nat.eq_dec q p) as [->|NE]; [congruence|now apply H3].
    + assert (G0 : getting (procs (clear_write (fm f)) p) = false) by (cbn; now rewrite EP).
      pose proof (peek_getting (clear_write (fm f)) p) as H. apply after_pending; [now apply (H p)|intros q; now apply H|exact C].
Qed.
Lemma pending_run n ls : Counted (pending_gets (fst (@frun A n ls))) (fm (fst (frun n ls))).
Proof.
  refine (run_machine_inv (@fstep A) (fun f _ => Counted (pending_gets f) (fm f)) _ ls (fifo_init n) [] _).
  - intros s tr l. apply fstep_pending.
  - exists []. split; [constructor|]. split; [|reflexivity]. intros p. cbn. split; [tauto|discriminate].
Qed.
Lemma fcan_get_reach n ls : let f := fst (@frun A n ls) in
  fcan_get f = true <-> queue (fm f) <> [] /\ forall p, procs (fm f) p <> WaitGet /\ procs (fm f) p <> WokenGet.
Proof.
  intros f. destruct (pending_run n ls) as (l & N & I & K). fold f in I, K. pose proof (can_peek_iff f) as P. unfold fcan_get, fcan_peek in *.
  rewrite andb_true_iff, P, K. apply and_iff_compat_l. rewrite Z.eqb_eq. split.
  - intros L p. destruct l; [|cbn in L; lia]. specialize (I p). cbn in I. destruct (procs (fm f) p); cbn in I; split; try discriminate; intros _; now apply I.
  - intros H. destruct l as [|p l]; [reflexivity|]. specialize (I p). specialize (H p). destruct I as [I _]. specialize (I (or_introl eq_refl)).
    destruct (procs (fm f) p); try discriminate; now destruct H.
Qed.
End Proofs.
