From Coq Require Import List Bool Arith ZArith Lia.
From Verif Require Import Prelude ObjectionModel ObjectionSpec ObjectionProofs.
Import ListNotations.
Open Scope Z_scope.

(** The state and the trace after a schedule. *)
Definition after (parent : nat -> nat) (ls : list label) : objn := fst (run_machine (ostep parent) objn0 ls).
Definition trace (parent : nat -> nat) (ls : list label) : list out := snd (run_machine (ostep parent) objn0 ls).
Definition both (parent : nat -> nat) (n : nat) (s : objn) (l : label) : Prop := calm parent n s l /\ prompt s l.

(** A small tree: 1 and 2 are children of the top, 3 and 4 of 1. *)
Definition par (o : nat) : nat := match o with 3%nat | 4%nat => 1%nat | _ => 0%nat end.
Lemma par_tree : tree par.
Proof. intros [|[|[|[|[|o]]]]] H; cbn; lia. Qed.

Lemma outstanding_ssum parent n s tr o : (forall d, src s d = net tr d) ->
  outstanding parent n tr o = ssum parent n (src s) o.
Proof. intros H. unfold outstanding, ssum. apply zsum_ext. intros d _. now rewrite H. Qed.

(** Checking a schedule by computation. *)
Definition calmb (n : nat) (s : objn) (l : label) : bool :=
  match l with
  | LRaise d k => Nat.ltb d n && (0 <=? k) &&
      forallb (fun c => negb (below par c d) || match fctx s c with None => true | Some _ => false end) (seq 0 (S d))
  | LDrop d k => Nat.ltb d n && (0 <=? k)
  | _ => true
  end.
Definition promptb (s : objn) (l : label) : bool :=
  match l with
  | LBg | LFork | LNotify _ => true
  | _ => match sched s with [] => true | _ => false end
  end.
Fixpoint run_okb (ok : objn -> label -> bool) (s : objn) (ls : list label) : bool :=
  match ls with [] => true | l :: ls => ok s l && run_okb ok (fst (ostep par s l)) ls end.
Lemma calmb_ok n s l : calmb n s l = true -> calm par n s l.
Proof.
  destruct l as [d k|d k| | |i|i]; cbn [calmb calm]; auto; rewrite !andb_true_iff, Nat.ltb_lt, Z.leb_le.
  - intros [[H1 H2] H3]. split; [auto|]. split; [auto|]. intros c Hc. rewrite forallb_forall in H3.
    specialize (H3 c). rewrite Hc in H3. cbn [negb orb] in H3.
    assert (In c (seq 0 (S d))) by (apply in_seq; apply (below_le par par_tree) in Hc; lia).
    specialize (H3 H). destruct (fctx s c); [discriminate|auto].
  - tauto.
Qed.
Lemma run_okb_ok okb (ok : objn -> label -> Prop) : (forall s l, okb s l = true -> ok s l) ->
  forall ls s, run_okb okb s ls = true -> run_ok par ok s ls.
Proof.
  intros H. induction ls as [|l ls IH]; intros s HS; cbn; [auto|].
  cbn in HS. apply andb_true_iff in HS as [H1 H2]. auto.
Qed.
Lemma calm_run n ls : run_okb (calmb n) objn0 ls = true -> run_ok par (calm par n) objn0 ls.
Proof. apply run_okb_ok. apply calmb_ok. Qed.
Lemma both_run n ls : run_okb (fun s l => calmb n s l && promptb s l) objn0 ls = true ->
  run_ok par (both par n) objn0 ls.
Proof.
  apply run_okb_ok. intros s l H. apply andb_true_iff in H as [H1 H2]. split; [now apply calmb_ok|].
  destruct l; cbn in *; auto; destruct (sched s); auto; discriminate.
Qed.

(** ** C40 *)
Theorem C40_totals : forall parent n ls o,
  tree parent -> run_ok parent (calm parent n) objn0 ls -> no_drain (after parent ls) ->
  tot (after parent ls) o = outstanding parent n (trace parent ls) o /\ 0 <= tot (after parent ls) o.
Proof.
  intros parent n ls o TR H (N1 & N2 & N3). pose proof (reach_inv parent TR n ls H) as (B & F & EX & NT).
  fold (after parent ls) in *. fold (trace parent ls) in *. split; [|apply (b_tot _ _ B)].
  rewrite (outstanding_ssum parent n (after parent ls)) by auto.
  rewrite EX. unfold expect, pending. rewrite N1, N2, N3. cbn. lia.
Qed.
Print Assumptions C40_totals.

(** Even while drains are in progress a total never falls short. *)
Theorem C40_totals_cover : forall parent n ls o,
  tree parent -> run_ok parent (calm parent n) objn0 ls ->
  outstanding parent n (trace parent ls) o <= tot (after parent ls) o.
Proof.
  intros parent n ls o TR H. pose proof (reach_inv parent TR n ls H) as (B & F & EX & NT).
  fold (after parent ls) in *. fold (trace parent ls) in *.
  rewrite (outstanding_ssum parent n (after parent ls)) by auto.
  rewrite EX. unfold expect. pose proof (psum_nonneg parent o _ (b_cnt _ _ B)). lia.
Qed.
Print Assumptions C40_totals_cover.

(** What is counted is exactly what the callers did: a raise adds its count to
    its caller, a drop takes it off unless the caller holds fewer, and nothing
    else ever changes. *)
Theorem C40_accounting : forall parent n ls l d,
  tree parent -> run_ok parent (calm parent n) objn0 (ls ++ [l]) ->
  let held := net (trace parent ls) in
  net (trace parent (ls ++ [l])) d =
  match l with
  | LRaise e k => if Nat.eqb e d then held d + k else held d
  | LDrop e k => if Nat.eqb e d && (k <=? held d) then held d - k else held d
  | _ => held d
  end.
Proof.
  intros parent n ls l d TR H held.
  assert (HR : run_ok parent (calm parent n) objn0 ls /\ calm parent n (after parent ls) l /\
               trace parent (ls ++ [l]) = trace parent ls ++ snd (ostep parent (after parent ls) l)).
  { unfold after, trace. revert H. generalize objn0. induction ls as [|a ls IH]; intros s H; cbn in *.
    - destruct H as [H _]. destruct (ostep parent s l). cbn. now rewrite app_nil_r.
    - destruct H as [H1 H2]. destruct (ostep parent s a) as [s1 o1]. cbn [fst] in *.
      destruct (IH s1 H2) as (I1 & I2 & I3).
      destruct (run_machine (ostep parent) s1 ls) as [s2 o2]. cbn [fst snd] in *.
      destruct (run_machine (ostep parent) s1 (ls ++ [l])) as [s3 o3]. cbn [fst snd] in *.
      rewrite I3. split; [auto|]. split; [auto|]. now rewrite app_assoc. }
  destruct HR as (H1 & C & ->).
  pose proof (reach_inv parent TR n ls H1) as (B & F & EX & NT).
  fold (after parent ls) in *. fold (trace parent ls) in *. unfold held. rewrite net_app.
  destruct l as [e k|e k| | |i|i]; cbn [calm] in C.
  - destruct C as (Hd & Hk & HG). destruct (Z.eq_dec k 0) as [->|NZ].
    { cbn. destruct (Nat.eqb e d); lia. }
    pose proof (raise_src parent TR n (after parent ls) e k Hd ltac:(lia) HG B F EX) as R. cbn [ostep].
    destruct (m_raise parent (S e) (after parent ls) e e k) as [s' outs]. cbn [snd].
    destruct R as (_ & _ & _ & _ & _ & _ & _ & o' & -> & R). cbn [net]. rewrite (net_silent _ d R).
    destruct (Nat.eqb e d); lia.
  - destruct C as (Hd & Hk). destruct (Z.eq_dec k 0) as [->|NZ].
    { cbn. destruct (Nat.eqb e d && (0 <=? net (trace parent ls) d)); lia. }
    cbn [ostep]. destruct (Z_gt_le_dec k (src (after parent ls) e)) as [G|G].
    + rewrite drop_refused by (auto; lia). cbn. destruct (Nat.eqb_spec e d) as [<-|]; [|cbn [snd fst net app andb]; lia].
      cbn [andb]. rewrite <- NT. destruct (Z.leb_spec k (src (after parent ls) e)); lia.
    + pose proof (drop_src parent TR n (after parent ls) e k Hd ltac:(lia) B EX) as R.
      destruct (m_drop parent (S e) (after parent ls) e e k) as [s' outs]. cbn [snd].
      destruct R as (_ & _ & _ & _ & _ & _ & _ & _ & o' & -> & R). cbn [net].
      rewrite (net_silent o'); [|eapply Forall_impl; [|exact R]; intros a [y ->]; eauto].
      destruct (Nat.eqb_spec e d) as [<-|]; [|cbn [snd fst net app andb]; lia].
      cbn [andb]. rewrite <- NT. destruct (Z.leb_spec k (src (after parent ls) e)); lia.
  - cbn [ostep]. destruct (ev _); [|cbn [snd fst net app andb]; lia]. destruct (sched _); cbn [snd fst net app andb]; lia.
  - cbn [ostep]. destruct (nfork _); [cbn [snd fst net app andb]; lia|]. destruct (flist _); cbn [snd fst net app andb]; lia.
  - cbn [ostep]. destruct (nth_error _ _) as [[c [|]]|]; cbn [snd fst net app andb]; lia.
  - destruct (nth_error (drain (after parent ls)) i) as [[c [|]]|] eqn:En;
      [|cbn [ostep]; rewrite En; cbn [snd fst net app andb]; lia|cbn [ostep]; rewrite En; cbn [snd fst net app andb]; lia].
    pose proof (finish_ok parent TR n _ i c En B F EX) as R.
    destruct (ostep parent (after parent ls) (LFinish i)) as [s' outs]. cbn [snd].
    destruct R as (_ & _ & _ & _ & _ & _ & _ & _ & R).
    rewrite (net_silent outs); [lia|]. eapply Forall_impl; [|exact R]. intros a [y ->]; eauto.
Qed.
Print Assumptions C40_accounting.

(** A schedule with several drains, all of it calm and prompt. *)
Definition demo : list label :=
  [LRaise 3 2; LRaise 4 1; LRaise 2 1; LDrop 3 1; LDrop 4 1; LBg; LFork; LDrop 3 1; LBg; LFork; LNotify 0;
   LNotify 1; LFinish 1; LFinish 0; LBg; LFork; LNotify 0; LFinish 0; LDrop 2 1; LBg; LFork; LNotify 0;
   LFinish 0; LBg; LFork; LNotify 0; LFinish 0].
Example C40_example :
  run_ok par (calm par 5) objn0 (firstn 5 demo) /\
  map (outstanding par 5 (trace par (firstn 3 demo))) [0; 1; 2; 3; 4]%nat = [4; 3; 1; 2; 1] /\
  map (tot (after par (firstn 3 demo))) [0; 1; 2; 3; 4]%nat = [4; 3; 1; 2; 1] /\
  no_drain (after par (firstn 3 demo)).
Proof.
  split; [apply calm_run|]; vm_compute; repeat split.
Qed.

(** Raising again during a drain leaves totals wrong for good. *)
Definition reraise : list label :=
  [LRaise 1 1; LDrop 1 1; LBg; LFork; LRaise 1 1; LNotify 0; LFinish 0; LBg; LFork; LNotify 0; LFinish 0].
Theorem C40_totals_limit :
  no_drain (after par reraise) /\ quiet (after par reraise) /\
  outstanding par 5 (trace par reraise) 0 = 1 /\ tot (after par reraise) 0 = 0.
Proof. vm_compute. repeat split. Qed.
Print Assumptions C40_totals_limit.

(** ** C41 *)
Definition nonneg (l : label) : Prop := match l with LRaise _ k | LDrop _ k => 0 <= k | _ => True end.

Definition NN (s : objn) : Prop := (forall d, 0 <= src s d) /\ (forall d, 0 <= tot s d).
Lemma drop_nn parent : forall fuel s o source k, NN s -> NN (fst (m_drop parent fuel s o source k)).
Proof.
  induction fuel as [|fuel IH]; intros s o source k [N1 N2]; [split; auto|]. cbn [m_drop].
  destruct (Z.eqb_spec k 0); [split; auto|].
  destruct (Z.gtb_spec k (tot s o)); [split; auto|].
  destruct (Nat.eqb o source) eqn:Eo; cbn [andb].
  - destruct (Z.gtb_spec k (src s o)); [split; auto|].
    set (s1 := set_tot _ _).
    assert (M : NN s1).
    { split; intros d; cbn; unfold upd; destruct (Nat.eqb d o); auto; lia. }
    destruct (negb (tot s1 o =? 0)).
    + destruct (negb (Nat.eqb o 0)); [|exact M].
      specialize (IH s1 (parent o) source k M). destruct (m_drop parent fuel s1 (parent o) source k). exact IH.
    + exact M.
  - set (s1 := set_tot _ _).
    assert (M : NN s1).
    { split; intros d; cbn; unfold upd; try destruct (Nat.eqb d o); auto; lia. }
    destruct (negb (tot s1 o =? 0)).
    + destruct (negb (Nat.eqb o 0)); [|exact M].
      specialize (IH s1 (parent o) source k M). destruct (m_drop parent fuel s1 (parent o) source k). exact IH.
    + exact M.
Qed.
Lemma find_ctx_nn s o : NN s -> NN (snd (find_ctx s o)).
Proof.
  intros N. unfold find_ctx. destruct (take_ctx o (sched s)) as [[? ?]|]; [exact N|].
  destruct (take_ctx o (flist s)) as [[? ?]|]; [exact N|]. destruct (fctx s o); exact N.
Qed.
Lemma raise_nn parent : forall fuel s o source k, 0 <= k -> NN s -> NN (fst (m_raise parent fuel s o source k)).
Proof.
  induction fuel as [|fuel IH]; intros s o source k Hk N; [exact N|]. cbn [m_raise].
  destruct (Z.eqb_spec k 0); [exact N|].
  set (s1 := set_tot s _). set (p := if Nat.eqb o source then _ else _).
  assert (NP : NN (fst p)).
  { destruct N as [N1 N2]. unfold p. destruct (Nat.eqb o source); split; intros d; cbn; unfold upd;
      try destruct (Nat.eqb d o); auto; specialize (N1 o); specialize (N2 o); lia. }
  destruct p as [s2 o1]. cbn [fst] in NP. pose proof (find_ctx_nn s2 o NP) as NF.
  destruct (find_ctx s2 o) as [[c|] s3]; cbn [snd] in NF.
  - destruct ((k - x_cnt c =? 0) || Nat.eqb o 0); [exact NF|].
    destruct (Z.gtb_spec (k - x_cnt c) 0).
    + specialize (IH s3 (parent o) source (k - x_cnt c) ltac:(lia) NF).
      destruct (m_raise parent fuel s3 (parent o) source (k - x_cnt c)). exact IH.
    + pose proof (drop_nn parent fuel s3 (parent o) source (- (k - x_cnt c)) NF) as D.
      destruct (m_drop parent fuel s3 (parent o) source (- (k - x_cnt c))). exact D.
  - destruct (negb (Nat.eqb o 0)); [|exact NF].
    specialize (IH s3 (parent o) source k Hk NF). destruct (m_raise parent fuel s3 (parent o) source k). exact IH.
Qed.
Lemma step_nn parent s l : nonneg l -> NN s -> NN (fst (ostep parent s l)).
Proof.
  intros Hl N. destruct l as [d k|d k| | |i|i]; cbn [ostep nonneg] in *.
  - now apply raise_nn.
  - now apply drop_nn.
  - destruct (ev s); [|exact N]. destruct (sched s); exact N.
  - destruct (nfork s); [exact N|]. destruct (flist s); exact N.
  - destruct (nth_error (drain s) i) as [[c [|]]|]; exact N.
  - destruct (nth_error (drain s) i) as [[c [|]]|]; [|exact N|exact N].
    set (s1 := set_drain s _). set (p := if negb _ then _ else _).
    assert (NP : NN (fst p)) by (unfold p; destruct (negb (Nat.eqb (x_obj c) 0)); [apply drop_nn; exact N|exact N]).
    destruct p as [s2 o2]. cbn [fst] in NP. destruct (fctx s2 (x_obj c)); exact NP.
Qed.

(** No schedule whatever makes a count negative. *)
Theorem C41_never_negative : forall parent ls d, Forall nonneg ls ->
  0 <= src (after parent ls) d /\ 0 <= tot (after parent ls) d.
Proof.
  intros parent ls d H. unfold after.
  assert (G : NN (fst (run_machine (ostep parent) objn0 ls))); [|split; apply G].
  assert (N0 : NN objn0) by (split; intros; cbn; lia).
  revert N0. generalize objn0. induction H as [|l ls H1 H2 IH]; intros s N; cbn; [exact N|].
  pose proof (step_nn parent s l H1 N) as N1. destruct (ostep parent s l) as [s1 o1]. cbn [fst] in N1.
  specialize (IH s1 N1). destruct (run_machine (ostep parent) s1 ls). exact IH.
Qed.
Print Assumptions C41_never_negative.

(** Dropping more than one holds is reported and has no effect, in every state. *)
Theorem C41_refused : forall parent s d k, k > src s d -> k <> 0 ->
  ostep parent s (LDrop d k) = (s, [OFatal d]).
Proof. intros parent s d k H1 H2. cbn [ostep]. apply drop_refused; auto; lia. Qed.
Print Assumptions C41_refused.

(** A refused drop of what an object does hold never happens either: dropping no
    more than one holds is never reported, however far it propagates. *)
Theorem C41_accepted : forall parent n ls d k,
  tree parent -> run_ok parent (calm parent n) objn0 ls -> (d < n)%nat ->
  0 <= k <= net (trace parent ls) d ->
  forall o, ~ In (OFatal o) (snd (ostep parent (after parent ls) (LDrop d k))).
Proof.
  intros parent n ls d k TR H Hd Hk o Hin.
  pose proof (reach_inv parent TR n ls H) as (B & F & EX & NT).
  fold (after parent ls) in *. fold (trace parent ls) in *. rewrite <- NT in Hk.
  destruct (Z.eq_dec k 0) as [->|NZ]; [contradiction|].
  pose proof (drop_src parent TR n (after parent ls) d k Hd ltac:(lia) B EX) as R. cbn [ostep] in Hin.
  destruct (m_drop parent (S d) (after parent ls) d d k) as [s' outs]. cbn [snd] in Hin.
  destruct R as (_ & _ & _ & _ & _ & _ & _ & _ & o' & -> & R). destruct Hin as [Hin|Hin]; [discriminate|].
  rewrite Forall_forall in R. apply R in Hin as [y Hy]. discriminate.
Qed.
Print Assumptions C41_accepted.

Example C41_example :
  net (trace par (firstn 3 demo)) 3 = 2 /\
  snd (ostep par (after par (firstn 3 demo)) (LDrop 3 3)) = [OFatal 3] /\
  snd (ostep par (after par (firstn 3 demo)) (LDrop 3 2)) = [OAcc 3 (-2); ODropped 3].
Proof. vm_compute. repeat split. Qed.

(** ** C42 *)
Theorem C42_background_terminates : forall parent s, tree parent ->
  exists bound, forall ls, run_ok parent active s ls -> (length ls <= bound)%nat.
Proof. intros parent s TR. exists (meas s). intros ls. now apply active_bound. Qed.
Print Assumptions C42_background_terminates.

Theorem C42_quiet_iff : forall s, quiet s <->
  (forall l, ~ active s l).
Proof.
  intros s. split.
  - intros (Q1 & Q2 & Q3) [d k|d k| | |i|i] A; cbn in A; auto; try congruence;
      destruct A as [c A]; rewrite Q3 in A; destruct i; discriminate.
  - intros H. split; [|split].
    + destruct (ev s) eqn:E; [|auto]. exfalso. apply (H LBg). exact E.
    + destruct (nfork s) eqn:E; [auto|]. exfalso. apply (H LFork). cbn. congruence.
    + destruct (drain s) as [|[c [|]] l] eqn:E; [auto| |]; exfalso.
      * apply (H (LFinish 0)). exists c. now rewrite E.
      * apply (H (LNotify 0)). exists c. now rewrite E.
Qed.
Print Assumptions C42_quiet_iff.

(** When the background process is not overtaken, its work is complete when it
    stops: no drain is pending, and if nothing is held every total is zero and
    the top has been told. *)
Theorem C42_drained : forall parent n ls,
  tree parent -> run_ok parent (both parent n) objn0 ls -> quiet (after parent ls) ->
  no_drain (after parent ls) /\
  ((forall d, (d < n)%nat -> net (trace parent ls) d = 0) ->
   (forall o, tot (after parent ls) o = 0) /\ told (trace parent ls) true = true).
Proof.
  intros parent n ls TR H (Q1 & Q2 & Q3).
  assert (G : (Inv parent n (after parent ls) (trace parent ls) /\ TI (after parent ls) (trace parent ls)) /\
              Q (after parent ls)).
  { refine (run_inv parent (fun s tr => (Inv parent n s tr /\ TI s tr) /\ Q s) (both parent n) _ ls objn0 [] H _).
    - intros s tr l [C P] [[I T] QQ]. split; [split|].
      + now apply step_inv.
      + now apply (step_TI parent TR n).
      + now apply (step_Q parent TR n s tr).
    - split; [split|].
      + apply inv0.
      + right; right. reflexivity.
      + cbn. repeat split; auto. }
  destruct G as [[(B & F & EX & NT) T] (G1 & G2 & G3)].
  assert (ND : no_drain (after parent ls)).
  { split; [destruct G2; [congruence|auto]|]. split; [|auto].
    rewrite Q2 in G3. destruct (flist (after parent ls)); [auto|cbn in G3; lia]. }
  split; [exact ND|]. intros Z0. destruct ND as (N1 & N2 & N3).
  assert (TZ : forall o, tot (after parent ls) o = 0).
  { intros o. rewrite EX. unfold expect, pending. rewrite N1, N2, N3. cbn.
    unfold ssum. rewrite (zsum_ext _ (fun _ => 0)).
    - clear. induction n; [reflexivity|]. rewrite zsum_S. lia.
    - intros d Hd. rewrite NT, (Z0 d Hd). now destruct (below parent o d). }
  split; [exact TZ|]. destruct T as [T|[T|T]]; [rewrite TZ in T; lia| |exact T].
  destruct T as [(c & Hc & _)|(c & Hc & _)]; [rewrite N1, N2 in Hc; destruct Hc|rewrite N3 in Hc; destruct Hc].
Qed.
Print Assumptions C42_drained.

Example C42_example :
  run_ok par (both par 5) objn0 demo /\ quiet (after par demo) /\
  In (OAllDropped 0) (trace par demo) /\ trace par demo <> [] /\
  (forall d, (d < 5)%nat -> net (trace par demo) d = 0).
Proof.
  split.
  { apply both_run. vm_compute. reflexivity. }
  split; [vm_compute; repeat split|]. split; [vm_compute; tauto|]. split; [vm_compute; discriminate|].
  intros [|[|[|[|[|d]]]]] Hd; [vm_compute; reflexivity..|lia].
Qed.

(** Two siblings dropping before the background process gets to run: the second
    drain is never carried out, so the top never hears of it. *)
Definition overtaken : list label :=
  [LRaise 1 1; LRaise 2 1; LDrop 1 1; LDrop 2 1; LBg; LFork; LNotify 0; LFinish 0].
Theorem C42_every_drain_limit :
  run_ok par (calm par 5) objn0 overtaken /\ quiet (after par overtaken) /\
  (forall d, net (trace par overtaken) d = 0) /\
  tot (after par overtaken) 0 = 1 /\ ~ In (OAllDropped 0) (trace par overtaken) /\
  sched (after par overtaken) <> [].
Proof.
  split; [apply calm_run; vm_compute; reflexivity|]. split; [vm_compute; repeat split|]. split.
  { intros [|[|[|d]]]; reflexivity. }
  split; [vm_compute; reflexivity|]. split; [vm_compute; intuition discriminate|vm_compute; discriminate].
Qed.
Print Assumptions C42_every_drain_limit.

(** ** C43 *)
Lemma ssum_zero parent n f o : tree parent -> (forall d, 0 <= f d) -> ssum parent n f o = 0 ->
  forall d, (d < n)%nat -> below parent o d = true -> f d = 0.
Proof.
  intros TR Hf H d Hd Hb. unfold ssum in H.
  pose proof (zsum_ge (fun d => if below parent o d then f d else 0) n d) as Z. cbn beta in Z.
  rewrite Hb in Z. pose proof (Hf d).
  assert (f d <= 0); [|lia]. rewrite <- H. apply Z; auto.
  intros e _. destruct (below parent o e); [apply Hf|lia].
Qed.
(** An object whose total is zero has nothing held at or beneath it; in
    particular the top total is zero only when nobody holds an objection. *)
Theorem C43_zero_means_none : forall parent n ls o,
  tree parent -> run_ok parent (calm parent n) objn0 ls -> tot (after parent ls) o = 0 ->
  forall d, (d < n)%nat -> below parent o d = true -> net (trace parent ls) d = 0.
Proof.
  intros parent n ls o TR H T d Hd Hb. pose proof (reach_inv parent TR n ls H) as (B & F & EX & NT).
  fold (after parent ls) in *. fold (trace parent ls) in *. rewrite <- NT.
  rewrite EX in T. unfold expect in T. pose proof (psum_nonneg parent o _ (b_cnt _ _ B)).
  assert (0 <= ssum parent n (src (after parent ls)) o).
  { apply zsum_nonneg. intros e _. destruct (below parent o e); [apply (b_src _ _ B)|lia]. }
  apply (ssum_zero parent n _ o TR (b_src _ _ B)); auto. lia.
Qed.
Print Assumptions C43_zero_means_none.
(** Nobody is told that everything beneath it is dropped while something is held. *)
Theorem C43_told_means_none : forall parent n ls i o,
  tree parent -> run_ok parent (calm parent n) objn0 ls ->
  In (OAllDropped o) (snd (ostep parent (after parent ls) (LNotify i))) ->
  forall d, (d < n)%nat -> below parent o d = true -> net (trace parent ls) d = 0.
Proof.
  intros parent n ls i o TR H Hin. apply C43_zero_means_none; auto.
  pose proof (reach_inv parent TR n ls H) as (B & F & EX & NT). fold (after parent ls) in *.
  cbn [ostep] in Hin. destruct (nth_error (drain (after parent ls)) i) as [[c [|]]|] eqn:En; try contradiction.
  destruct Hin as [[= <-]|[]]. apply (b_zero _ _ B).
  unfold pending. rewrite !in_app_iff. right. right. apply nth_error_In in En.
  apply (in_map d_ctx) in En. exact En.
Qed.
Print Assumptions C43_told_means_none.
Example C43_example :
  run_ok par (calm par 5) objn0 (firstn 25 demo) /\
  snd (ostep par (after par (firstn 25 demo)) (LNotify 0)) = [OAllDropped 0].
Proof.
  split; [apply calm_run|]; vm_compute; reflexivity.
Qed.

(** Raising again while the object drains: the abandoned drain still takes the
    objection off the top, which is told that everything is dropped while the
    object holds an objection; and cleaning up then fails. *)
Theorem C43_reraise_limit :
  net (trace par reraise) 1 = 1 /\ tot (after par reraise) 0 = 0 /\
  In (OAllDropped 0) (trace par reraise) /\ In OKeyError (trace par reraise).
Proof. vm_compute. tauto. Qed.
Print Assumptions C43_reraise_limit.

(** ** C82 *)
(** A drain time set for an object (rather than for the top) is ignored. *)
Theorem C82_object_ignored : forall dt o t o', set_drain_time dt (Some o) t o' = dt o'.
Proof. reflexivity. Qed.
Print Assumptions C82_object_ignored.
Theorem C82_none_sets_top : forall dt t o', set_drain_time dt None t o' = if Nat.eqb o' 0 then t else dt o'.
Proof. intros dt t o'. cbn. unfold upd. now rewrite ?(Nat.eqb_sym 0 o'). Qed.
Print Assumptions C82_none_sets_top.
Theorem C82_drain_time_limit :
  exists dt o t, set_drain_time dt (Some o) t o <> t /\ set_drain_time dt None t o <> t /\
                 set_drain_time dt None t 0%nat = t.
Proof. exists (fun _ => 0), 1%nat, 5. cbn. repeat split; discriminate. Qed.
Print Assumptions C82_drain_time_limit.
