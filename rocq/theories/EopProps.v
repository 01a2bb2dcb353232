(** C231: when a task phase ends. *)
From Coq Require Import ZArith List Bool Arith Lia.
From Verif Require Import Prelude PhaseRunModel EopModel EopSpec.
Import ListNotations.
Local Open Scope nat_scope.

Section Eop.
Context (self : nat) (sibs : list nat) (has_obj : nat -> bool) (ovm : bool) (max_iter : nat) (e0 : env).

Local Notation step := (EopModel.step self sibs has_obj ovm max_iter).
Definition state (ls : list lab) : ps := fst (EopModel.run self sibs has_obj ovm max_iter e0 ls).
Definition outs (ls : list lab) : list out := snd (EopModel.run self sibs has_obj ovm max_iter e0 ls).
Definition after (ls : list lab) : env := en (state ls).
Local Notation idle := (EopSpec.idle self has_obj after).
Local Notation in_turn := (EopSpec.in_turn self has_obj after).
Local Notation no_ready := (EopSpec.no_ready outs).

Lemma run_snoc ls l :
  state (ls ++ [l]) = fst (step (state ls) l) /\ outs (ls ++ [l]) = outs ls ++ snd (step (state ls) l).
Proof.
  unfold state, outs, EopModel.run. rewrite run_machine_app.
  destruct (run_machine step (start self e0) ls) as [s o]. cbn [fst snd run_machine].
  destruct (step s l) as [s1 o1]. cbn. now rewrite app_nil_r.
Qed.

Lemma no_ready_refl ls : no_ready ls ls.
Proof. exists [], []. rewrite !app_nil_r. repeat split; auto. Qed.
Lemma no_ready_snoc a ls l : no_ready a ls -> ~ In OReady (snd (step (state ls) l)) -> no_ready a (ls ++ [l]).
Proof.
  intros (b & o & E & Eo & N) H. destruct (run_snoc ls l) as [_ Ho].
  exists (b ++ [l]), (o ++ snd (step (state ls) l)). split; [|split].
  - now rewrite E, app_assoc.
  - now rewrite Ho, Eo, app_assoc.
  - rewrite in_app_iff. tauto.
Qed.
Lemma in_turn_snoc qs q : forall a c b, in_turn qs a c -> idle (c ++ b) q -> in_turn (qs ++ [q]) a (c ++ b).
Proof.
  induction qs as [|p qs IH]; intros a c b H Hi; cbn in *.
  - subst. exists b. auto.
  - destruct H as (b' & Hp & H). exists b'. split; [exact Hp|]. now apply IH.
Qed.

(** the invariant *)
Definition prefix_of (c ls : list lab) : Prop := exists d, ls = c ++ d.
Definition turned (qs : list nat) (ls : list lab) : Prop :=
  exists a c, in_turn qs a c /\ prefix_of c ls /\ no_ready a ls.
Definition Inv (ls : list lab) : Prop :=
  count (state ls) = readies (outs ls) /\
  (again (state ls) = true -> 1 <= count (state ls)) /\
  match at_ (state ls) with
  | AtState q r need => exists pre, sibs = pre ++ q :: r /\ (need = false -> turned (self :: pre) ls)
  | AtDrop q r => exists pre, sibs = pre ++ q :: r
  | AtTop => turned (self :: sibs) ls
  | AtTrav | AtNba2 => 1 <= count (state ls)
  | _ => True
  end.
Lemma prefix_snoc c ls l : prefix_of c ls -> prefix_of c (ls ++ [l]).
Proof. intros (d & ->). exists (d ++ [l]). now rewrite app_assoc. Qed.
Lemma turned_snoc qs ls l : turned qs ls -> ~ In OReady (snd (step (state ls) l)) -> turned qs (ls ++ [l]).
Proof.
  intros (a & c & H & P & N) Ho. exists a, c. split; [exact H|]. split; [now apply prefix_snoc|now apply no_ready_snoc].
Qed.
(** one more phase is found idle now *)
Lemma turned_more qs ls q : turned qs ls -> idle ls q -> exists a, in_turn (qs ++ [q]) a ls /\ no_ready a ls.
Proof.
  intros (a & c & H & (d & E) & N) Hi. exists a. split; [|exact N]. rewrite E in *. now apply in_turn_snoc.
Qed.
Lemma turned_now qs ls a : in_turn qs a ls -> no_ready a ls -> turned qs ls.
Proof. intros H N. exists a, ls. repeat split; auto. exists []. now rewrite app_nil_r. Qed.
Lemma idle_self ls : objects has_obj (en (state ls)) self = false -> idle ls self.
Proof.
  unfold objects, EopSpec.idle, after. intros H. split; [|tauto]. intros Ho. rewrite Ho in H. cbn in H.
  apply negb_false_iff, Nat.eqb_eq in H. exact H.
Qed.
Lemma start_turn ls : idle ls self -> in_turn [self] ls ls.
Proof. intros H. exists []. rewrite app_nil_r. split; [exact H|reflexivity]. Qed.

Definition ends_now (ls : list lab) : Prop :=
  again (state ls) = true /\ exists a, in_turn (self :: sibs) a ls /\ no_ready a ls.
(** what a step that does not announce READY_TO_END leads to *)
Definition Good (ls : list lab) (r : ps * list out) : Prop :=
  (In OEnd (snd r) -> ends_now ls) /\ ~ In OReady (snd r) /\ count (fst r) = count (state ls) /\
  again (fst r) = again (state ls) /\
  match at_ (fst r) with
  | AtState q r need => exists pre, sibs = pre ++ q :: r /\ (need = false -> turned (self :: pre) ls)
  | AtDrop q r => exists pre, sibs = pre ++ q :: r
  | AtTop => turned (self :: sibs) ls
  | AtTrav | AtNba2 => False
  | _ => True
  end.
Definition same (ls : list lab) (s : ps) : Prop :=
  tot (en s) = tot (en (state ls)) /\ st (en s) = st (en (state ls)) /\
  count s = count (state ls) /\ again s = again (state ls).
Lemma same_refl ls : same ls (state ls).
Proof. repeat split. Qed.

Local Ltac g5 := (split; [|split; [|split; [|split]]]).
Lemma finish_good ls s a : same ls s -> in_turn (self :: sibs) a ls -> no_ready a ls ->
  Good ls (finish self max_iter s).
Proof.
  intros (S1 & S2 & S3 & S4) H N. pose proof (turned_now _ _ _ H N) as T.
  unfold finish, Good, ends_now. rewrite S4.
  destruct (again (state ls)) eqn:Ea; cbn [negb];
    [destruct ((st (en s) self =? EXECUTING)%Z && (count s <? max_iter))|];
    cbn [fst snd goto at_ count again]; rewrite ?S3, ?S4;
    g5; auto; try (intros [|[]]; discriminate); try (now intros []).
  intros _. split; [reflexivity|]. exists a. auto.
Qed.
Lemma pass_good ls s : same ls s -> Good ls (pass self sibs has_obj max_iter s).
Proof.
  intros Sm. pose proof Sm as (S1 & S2 & S3 & S4). unfold pass.
  destruct (objects has_obj (en s) self) eqn:Eo.
  - unfold Good, back. cbn. g5; auto; try (intros [|[]]; discriminate).
  - assert (Hi : idle ls self).
    { apply idle_self. unfold objects in *. now rewrite <- S1. }
    pose proof (start_turn _ Hi) as Ht. pose proof (no_ready_refl ls) as Hn.
    destruct sibs as [|q r] eqn:Es.
    + apply finish_good with (a := ls); auto. now rewrite Es.
    + unfold Good. cbn. g5; auto; try (now intros []).
      exists []. split; [exact Es|]. intros _. eapply turned_now; eauto.
Qed.
Lemma next_good ls s pre rest need : same ls s -> sibs = pre ++ rest ->
  (need = false -> exists a, in_turn (self :: pre) a ls /\ no_ready a ls) ->
  Good ls (next self sibs has_obj max_iter s rest need).
Proof.
  intros Sm E H. unfold next. destruct rest as [|q r].
  - destruct need; [now apply pass_good|]. destruct (H eq_refl) as (a & Ha & Na).
    rewrite app_nil_r in E. rewrite <- E in Ha. eapply finish_good; eauto.
  - destruct Sm as (S1 & S2 & S3 & S4). unfold Good. cbn. g5; auto; try (now intros []).
    exists pre. split; [exact E|]. intros Hn. destruct (H Hn) as (a & Ha & Na). eapply turned_now; eauto.
Qed.

Lemma resume_good ls : Inv ls -> at_ (state ls) <> AtTop -> at_ (state ls) <> AtTrav -> at_ (state ls) <> AtNba2 ->
  Good ls (resume self sibs has_obj ovm max_iter (state ls)).
Proof.
  intros (I1 & I2 & I3) N1 N2 N3. unfold resume. pose proof (same_refl ls) as Sm.
  destruct (at_ (state ls)) as [| | | |q r need|q r| | | |] eqn:Ea; try congruence.
  - destruct (_ && _); unfold Good; cbn; g5; auto; now intros [].
  - unfold Good; cbn; g5; auto; now intros [].
  - now apply pass_good.
  - apply next_good with (pre := []); auto. discriminate.
  - destruct I3 as (pre & E & T). destruct (ev (en (state ls)) q) eqn:Ev; cbn zeta; cbn [en st tot].
    2: { unfold Good; cbn [fst snd]; rewrite Ea; g5; auto; try (now intros []). exists pre. auto. }
    set (s := PS _ _ _ _). assert (Ss : same ls s) by (repeat split).
    destruct (EXECUTING <=? st (en (state ls)) q)%Z eqn:El.
    2: { unfold Good; cbn [fst snd]. subst s. cbn [at_ count again]. rewrite ?Ea. g5; auto; try (now intros []). exists pre. auto. }
    destruct (objects has_obj _ q) eqn:Eo.
    + unfold Good, back; cbn. g5; auto; try (intros [|[]]; discriminate). exists pre. exact E.
    + apply next_good with (pre := pre ++ [q]); auto; [now rewrite <- app_assoc|].
      intros Hn. change (self :: pre ++ [q]) with ((self :: pre) ++ [q]). apply turned_more; auto.
      split.
      * intros Ho. unfold objects in Eo. rewrite Ho in Eo. cbn in Eo. now apply negb_false_iff, Nat.eqb_eq in Eo.
      * intros _. now apply Z.leb_le.
  - destruct I3 as (pre & E). apply next_good with (pre := pre ++ [q]); auto; [now rewrite <- app_assoc|discriminate].
  - unfold Good; cbn [fst snd]. rewrite Ea. g5; auto; now intros [].
Qed.

Lemma readies_none o : ~ In OReady o -> readies o = 0.
Proof.
  unfold readies. induction o as [|x o IH]; intros H; [reflexivity|]. cbn in *. destruct x; auto. exfalso. auto.
Qed.
Lemma readies_app o1 o2 : readies (o1 ++ o2) = readies o1 + readies o2.
Proof. unfold readies. now rewrite filter_app, app_length. Qed.
Lemma good_inv ls l : Inv ls -> Good ls (step (state ls) l) -> Inv (ls ++ [l]).
Proof.
  intros (I1 & I2 & I3) (G1 & G2 & G3 & G4 & G5). destruct (run_snoc ls l) as [Hs Ho]. unfold Inv.
  rewrite Hs, Ho, readies_app, G3, G4, (readies_none _ G2), Nat.add_0_r.
  split; [exact I1|]. split; [exact I2|].
  destruct (at_ (fst (step (state ls) l))); try tauto.
  - destruct G5 as (pre & E & T). exists pre. split; [exact E|]. intros Hn. now apply turned_snoc; auto.
  - now apply turned_snoc.
Qed.
Lemma env_step ls l : l <> LRun -> exists e, step (state ls) l = (with_env (state ls) e, []).
Proof.
  destruct l; intros N; cbn; eauto; [congruence|]. destruct (q =? self); eauto.
  exists (en (state ls)). now destruct (state ls).
Qed.
Lemma inv_all ls : Inv ls.
Proof.
  induction ls as [|l ls IH] using rev_ind; [repeat split; discriminate|].
  destruct (run_snoc ls l) as [Hs Ho].
  assert (Dl : l = LRun \/ l <> LRun) by (destruct l; auto; right; discriminate).
  destruct Dl as [->|Nl].
  - assert (Da : at_ (state ls) = AtTop \/ at_ (state ls) = AtTrav \/ at_ (state ls) = AtNba2 \/
      (at_ (state ls) <> AtTop /\ at_ (state ls) <> AtTrav /\ at_ (state ls) <> AtNba2)).
    { destruct (at_ (state ls)); auto; right; right; right; repeat split; discriminate. }
    cbn [EopModel.step] in *. unfold resume in Hs, Ho.
    destruct Da as [Ha|[Ha|[Ha|(N1 & N2 & N3)]]]; try rewrite Ha in Hs, Ho; destruct IH as (I1 & I2 & I3).
    + unfold Inv. rewrite Hs, Ho. cbn. rewrite readies_app. cbn. rewrite I1. repeat split; lia.
    + unfold Inv. rewrite Hs, Ho. cbn. rewrite app_nil_r. rewrite Ha in I3. auto.
    + unfold Inv. rewrite Hs, Ho. cbn. rewrite app_nil_r. rewrite Ha in I3. auto.
    + apply good_inv; [repeat split; auto|]. apply resume_good; auto. repeat split; auto.
  - destruct (env_step ls l Nl) as (e & E). destruct IH as (I1 & I2 & I3). unfold Inv.
    rewrite Hs, Ho, E. cbn. rewrite app_nil_r. split; [exact I1|]. split; [exact I2|].
    assert (Nr : ~ In OReady (snd (step (state ls) l))) by (rewrite E; now intros []).
    destruct (at_ (state ls)); auto.
    + destruct I3 as (pre & E' & T). exists pre. split; [exact E'|]. intros Hn. now apply turned_snoc; auto.
    + now apply turned_snoc.
Qed.

(** The end: after READY_TO_END was announced for the last time, the phase had no objection at
    some moment, then the first sibling had none and was executing, ..., and the last of them
    has none right now. *)
Theorem C231_end ls l : In OEnd (snd (step (state ls) l)) ->
  In OReady (outs ls) /\ exists a, in_turn (self :: sibs) a ls /\ no_ready a ls.
Proof.
  intros H. pose proof (inv_all ls) as I.
  assert (Dl : l = LRun \/ l <> LRun) by (destruct l; auto; right; discriminate).
  destruct Dl as [->|Nl]; [|destruct (env_step ls l Nl) as (e & E); rewrite E in H; destruct H].
  cbn [EopModel.step] in H.
  assert (G : ends_now ls).
  { assert (at_ (state ls) <> AtTop /\ at_ (state ls) <> AtTrav /\ at_ (state ls) <> AtNba2) as (N1 & N2 & N3).
    { unfold resume in H. repeat split; intros Ha; rewrite Ha in H; cbn in H; intuition discriminate. }
    apply (resume_good ls I N1 N2 N3). exact H. }
  destruct G as (Ga & G). split; [|exact G]. destruct I as (I1 & I2 & _). specialize (I2 Ga). rewrite I1 in I2. unfold readies in I2.
  destruct (filter _ (outs ls)) as [|x f] eqn:Ef; [cbn in I2; lia|].
  assert (Hx : In x (x :: f)) by now left. rewrite <- Ef in Hx. apply filter_In in Hx as [Hx Hr].
  destruct x; try discriminate. exact Hx.
Qed.
(** Before READY_TO_END is announced they were found so in turn, after the announcement before. *)
Theorem C231_ready ls l : In OReady (snd (step (state ls) l)) ->
  exists a c d, ls = c ++ d /\ in_turn (self :: sibs) a c /\ no_ready a ls.
Proof.
  intros H. pose proof (inv_all ls) as I.
  assert (Dl : l = LRun \/ l <> LRun) by (destruct l; auto; right; discriminate).
  destruct Dl as [->|Nl]; [|destruct (env_step ls l Nl) as (e & E); rewrite E in H; destruct H].
  cbn [EopModel.step] in H.
  assert (Ha : at_ (state ls) = AtTop).
  { destruct (at_ (state ls)) eqn:Ha; try reflexivity; exfalso;
      try (refine (proj1 (proj2 (resume_good ls I _ _ _)) H); rewrite Ha; discriminate);
      unfold resume in H; rewrite Ha in H; destruct H. }
  destruct I as (_ & _ & I3). rewrite Ha in I3. destruct I3 as (a & c & T & (d & E) & N). eauto 8.
Qed.
(** So an objection of the phase, or of a sibling, that is held since the last announcement (or
    since the begin) holds up the end and the announcement. *)
Lemma in_turn_le qs : forall a c, in_turn qs a c -> exists b, c = a ++ b.
Proof.
  induction qs as [|q qs IH]; intros a c H; cbn in H.
  - subst. exists []. now rewrite app_nil_r.
  - destruct H as (b & _ & H). destruct (IH _ _ H) as (b' & ->). exists (b ++ b'). now rewrite app_assoc.
Qed.
Lemma in_turn_each qs q : In q qs -> forall a c, in_turn qs a c -> exists b d, c = a ++ b ++ d /\ idle (a ++ b) q.
Proof.
  induction qs as [|p qs IH]; intros Hq a c H; [destruct Hq|]. cbn in H. destruct H as (b & Hi & H).
  destruct Hq as [->|Hq].
  - destruct (in_turn_le _ _ _ H) as (d & ->). exists b, d. rewrite app_assoc. auto.
  - destruct (IH Hq _ _ H) as (b' & d & -> & Hi'). exists (b ++ b'), d. rewrite <- !app_assoc in *. auto.
Qed.
Lemma outs_app a b : exists o, outs (a ++ b) = outs a ++ o.
Proof. unfold outs, EopModel.run. rewrite run_machine_app. cbn [snd]. eexists. reflexivity. Qed.
Theorem C231_held ls l q : In q (self :: sibs) -> has_obj q = true ->
  (forall a, no_ready a ls -> tot (after a) q <> 0) ->
  ~ In OEnd (snd (step (state ls) l)) /\ ~ In OReady (snd (step (state ls) l)).
Proof.
  intros Hq Ho Hh.
  assert (K : forall a c d, ls = c ++ d -> in_turn (self :: sibs) a c -> no_ready a ls -> False).
  { intros a c d E T N. destruct (in_turn_each _ _ Hq _ _ T) as (b & d' & Ec & Hi & _).
    apply (Hh (a ++ b)); [|now apply Hi]. clear Hi T Hh.
    destruct N as (z & o & Ez & Eo & Nz).
    destruct (outs_app a b) as (o1 & E1). destruct (outs_app (a ++ b) (d' ++ d)) as (o2 & E2).
    assert (El : ls = (a ++ b) ++ d' ++ d) by (rewrite E, Ec, <- !app_assoc; reflexivity).
    exists (d' ++ d), o2. split; [exact El|]. split; [now rewrite El|].
    rewrite El, E2, E1, <- app_assoc in Eo. apply app_inv_head in Eo. subst o.
    intros H. apply Nz. apply in_or_app. now right. }
  split; intros H.
  - destruct (C231_end _ _ H) as (_ & a & T & N). apply (K a ls []); auto. now rewrite app_nil_r.
  - destruct (C231_ready _ _ H) as (a & c & d & E & T & N). eapply K; eauto.
Qed.

Local Ltac g3 := (split; [|split]).
Lemma counts m ls : 1 <= m -> max_iter <= m ->
  count (state ls) <= m /\
  (again (state ls) = false -> match at_ (state ls) with AtTrav | AtNba2 => True | _ => count (state ls) = 0 end) /\
  (at_ (state ls) = AtTop -> count (state ls) < m).
Proof.
  intros M1 M2.
  induction ls as [|l ls (J1 & J2 & J3)] using rev_ind; [cbn; g3; intros; try discriminate; lia|].
    destruct (run_snoc ls l) as [Hs _]. rewrite Hs. clear Hs.
    destruct (state ls) as [e p ag k]. cbn [at_ again count] in *.
    destruct l as [|q v|q z|q|b]; cbn [EopModel.step];
      try (cbn; g3; auto; fail);
      [|destruct (q =? self); cbn; g3; auto].
    assert (F : forall e p, match p with AtTop | AtTrav | AtNba2 => False | _ => True end ->
      (ag = false -> k = 0) ->
      let s := PS e p ag k in let r := fst (finish self max_iter s) in
      count r <= m /\ (again r = false -> match at_ r with AtTrav | AtNba2 => True | _ => count r = 0 end) /\
      (at_ r = AtTop -> count r < m)).
    { intros e' p' _ Hk. unfold finish. cbn [again en count]. destruct ag; cbn [negb].
      - destruct ((st e' self =? EXECUTING)%Z && (k <? max_iter)) eqn:Ef; cbn; g3; auto; try discriminate.
        intros _. apply andb_true_iff in Ef as [_ Ef]. apply Nat.ltb_lt in Ef. lia.
      - cbn; rewrite (Hk eq_refl). g3; auto; lia. }
    assert (Pz : forall e p, match p with AtTop | AtTrav | AtNba2 => False | _ => True end ->
      (ag = false -> k = 0) ->
      let s := PS e p ag k in let r := fst (pass self sibs has_obj max_iter s) in
      count r <= m /\ (again r = false -> match at_ r with AtTrav | AtNba2 => True | _ => count r = 0 end) /\
      (at_ r = AtTop -> count r < m)).
    { intros e' p' Hp Hk. unfold pass. cbn. destruct (objects has_obj e' self); [cbn; g3; auto; discriminate|].
      destruct sibs as [|q r]; [now apply F|]. cbn. g3; auto; discriminate. }
    assert (Nx : forall e p rest need, match p with AtTop | AtTrav | AtNba2 => False | _ => True end ->
      (ag = false -> k = 0) ->
      let s := PS e p ag k in let r := fst (next self sibs has_obj max_iter s rest need) in
      count r <= m /\ (again r = false -> match at_ r with AtTrav | AtNba2 => True | _ => count r = 0 end) /\
      (at_ r = AtTop -> count r < m)).
    { intros e' p' rest need Hp Hk. unfold next. destruct rest as [|q r]; [destruct need; [now apply Pz|now apply F]|].
      cbn. g3; auto; discriminate. }
    unfold resume. cbn [at_]. destruct p as [| | | |q r need|q r| | | |]; cbn [en].
    - destruct (_ && _); cbn; g3; auto; discriminate.
    - cbn; g3; auto; discriminate.
    - apply Pz; auto.
    - apply Nx; auto.
    - destruct (ev e q); [|cbn; g3; auto; discriminate]. cbn zeta. cbn [en st tot].
      destruct (EXECUTING <=? st e q)%Z; [|cbn; g3; auto; discriminate].
      destruct (objects has_obj _ q); [cbn; g3; auto; discriminate|]. apply Nx; auto.
    - apply Nx; auto.
    - specialize (J3 eq_refl). cbn. g3; auto; try discriminate; lia.
    - cbn. g3; auto; discriminate.
    - cbn. g3; auto; discriminate.
    - cbn. g3; auto; discriminate.
Qed.
(** READY_TO_END is announced at most [max_iter] times (20), *)
Theorem C231_bound ls : readies (outs ls) <= Nat.max 1 max_iter.
Proof. destruct (inv_all ls) as (I1 & _ & _). rewrite <- I1. apply counts; lia. Qed.

(** and again only if the phase went back to EXECUTING since, *)
Lemma back_since_snoc o : In OReady o -> back_since (o ++ [OExec]).
Proof.
  induction o as [|x o IH]; intros H; [destruct H|].
  assert (Di : In OReady o \/ ~ In OReady o).
  { destruct (in_dec (fun x y : out => ltac:(decide equality) : {x = y} + {x <> y}) OReady o); auto. }
  destruct Di as [Hi|Hn].
  - destruct (IH Hi) as (o1 & o2 & E & N & B). exists (x :: o1), o2. cbn. rewrite E. auto.
  - destruct H as [->|H]; [|tauto]. exists [], (o ++ [OExec]). cbn. split; [reflexivity|].
    rewrite !in_app_iff. cbn. split; [|auto]. intros [|[|[]]]; [tauto|discriminate].
Qed.
Definition Kinv (s : ps) (o : list out) : Prop :=
  (In OReady o -> st (en s) self = EXECUTING -> back_since o) /\ (In OReady o -> at_ s = AtTop -> back_since o).
Definition Kpost (o : list out) (r : ps * list out) : Prop := Kinv (fst r) (o ++ snd r).
Lemma k_keep s o p ag : p <> AtTop -> Kinv s o -> Kpost o (PS (en s) p ag (count s), []).
Proof. intros N (K1 & K2). unfold Kpost, Kinv. cbn. rewrite app_nil_r. split; [exact K1|]. intros _ E. congruence. Qed.
Lemma k_back s o p : p <> AtTop -> Kpost o (back self s p).
Proof.
  intros N. unfold Kpost, Kinv, back. cbn. split.
  - intros H _. apply back_since_snoc. apply in_app_iff in H as [H|[H|[]]]; [exact H|discriminate].
  - intros _ E. congruence.
Qed.
Lemma k_finish s o : (again s = false -> ~ In OReady o) -> Kinv s o -> Kpost o (finish self max_iter s).
Proof.
  intros A (K1 & K2). unfold finish. destruct (again s) eqn:Ea; cbn [negb].
  - destruct ((st (en s) self =? EXECUTING)%Z && (count s <? max_iter)) eqn:Ef.
    + unfold Kpost, Kinv. cbn. rewrite app_nil_r. split; [exact K1|]. intros H _. apply K1; [exact H|].
      apply andb_true_iff in Ef as [Ef _]. now apply Z.eqb_eq in Ef.
    + unfold Kpost, Kinv. cbn. split; [|discriminate]. intros H E.
      apply in_app_iff in H as [H|[H|[]]]; [|discriminate].
      destruct (K1 H E) as (o1 & o2 & -> & N & B). exists o1, (o2 ++ [OEnd]).
      rewrite <- app_assoc, !in_app_iff. cbn. split; [reflexivity|]. split; [|auto]. intros [|[|[]]]; [tauto|discriminate].
  - unfold Kpost, Kinv. cbn. rewrite app_nil_r. split; [exact K1|]. intros H. now destruct (A eq_refl).
Qed.
Lemma k_pass s o : (again s = false -> ~ In OReady o) -> Kinv s o -> Kpost o (pass self sibs has_obj max_iter s).
Proof.
  intros A K. unfold pass. destruct (objects has_obj (en s) self); [apply k_back; discriminate|].
  destruct sibs as [|q r]; [now apply k_finish|]. apply k_keep; [discriminate|exact K].
Qed.
Lemma k_next s o rest need : (again s = false -> ~ In OReady o) -> Kinv s o ->
  Kpost o (next self sibs has_obj max_iter s rest need).
Proof.
  intros A K. unfold next. destruct rest as [|q r]; [|apply k_keep; [discriminate|exact K]].
  destruct need; [now apply k_pass|now apply k_finish].
Qed.
Lemma readies_in o : readies o = 0 -> ~ In OReady o.
Proof. unfold readies. induction o as [|x o IH]; intros H; [now intros []|]. cbn in *. destruct x; try discriminate; intros [|Hi]; try discriminate; now apply IH. Qed.
Lemma k_all ls : Kinv (state ls) (outs ls).
Proof.
  induction ls as [|l ls IH] using rev_ind; [split; cbn; intros []|].
  destruct (run_snoc ls l) as [Hs Ho]. rewrite Hs, Ho. change (Kpost (outs ls) (step (state ls) l)).
  destruct (inv_all ls) as (I1 & _ & _).
  destruct (counts (Nat.max 1 max_iter) ls ltac:(lia) ltac:(lia)) as (_ & C & _).
  revert IH I1 C. generalize (outs ls) as o. generalize (state ls) as s. clear. intros s o K I1 C.
  assert (Env : forall e, st e self = st (en s) self -> Kpost o (with_env s e, [])).
  { intros e E. destruct K as (K1 & K2). unfold Kpost, Kinv. cbn. rewrite app_nil_r, E. auto. }
  destruct l as [|q v|q z|q|b]; cbn [EopModel.step]; try (now apply Env).
  2: { destruct (q =? self) eqn:E; [|apply Env; cbn; apply Nat.eqb_neq in E; now rewrite upd_neq by auto].
       unfold Kpost, Kinv. cbn. rewrite app_nil_r. exact K. }
  assert (A : match at_ s with AtTrav | AtNba2 => True | _ => again s = false -> ~ In OReady o end).
  { destruct (at_ s); auto; intros Ha; apply readies_in; rewrite <- I1; now apply C. }
  clear C I1 Env. unfold resume. destruct (at_ s) as [| | | |q r need|q r| | | |] eqn:Ea.
  - destruct (_ && _); apply k_keep; auto; discriminate.
  - apply k_keep; auto; discriminate.
  - now apply k_pass.
  - now apply k_next.
  - destruct (ev (en s) q) eqn:Ev; cbn zeta; cbn [en st tot].
    2: { unfold Kpost, Kinv. cbn. rewrite app_nil_r. exact K. }
    set (s' := PS _ _ _ _). assert (K' : Kinv s' o).
    { destruct K as (K1 & K2). subst s'. split; cbn; [exact K1|congruence]. }
    destruct (EXECUTING <=? st (en s) q)%Z.
    2: { unfold Kpost. cbn [fst snd]. rewrite app_nil_r. exact K'. }
    destruct (objects has_obj _ q); [apply k_back; discriminate|]. now apply k_next.
  - now apply k_next.
  - unfold Kpost, Kinv. cbn. split; [|discriminate]. rewrite upd_eq. intros _ E. discriminate.
  - apply k_keep; auto; discriminate.
  - apply k_keep; auto; discriminate.
  - unfold Kpost, Kinv. cbn. rewrite app_nil_r. exact K.
Qed.
Theorem C231_repeat ls l : In OReady (snd (step (state ls) l)) -> In OReady (outs ls) -> back_since (outs ls).
Proof.
  intros H Hi. apply (proj2 (k_all ls)); [exact Hi|].
  pose proof (inv_all ls) as I.
  assert (Dl : l = LRun \/ l <> LRun) by (destruct l; auto; right; discriminate).
  destruct Dl as [->|Nl]; [|destruct (env_step ls l Nl) as (e & E); rewrite E in H; destruct H].
  cbn [EopModel.step] in H.
  destruct (at_ (state ls)) eqn:Ha; try reflexivity; exfalso;
    try (refine (proj1 (proj2 (resume_good ls I _ _ _)) H); rewrite Ha; discriminate);
    unfold resume in H; rewrite Ha in H; destruct H.
Qed.
(** which it only does while there is an objection of its own or of a sibling. *)
Lemma pass_exec s : In OExec (snd (pass self sibs has_obj max_iter s)) -> objects has_obj (en s) self = true.
Proof.
  unfold pass. destruct (objects has_obj (en s) self); [reflexivity|]. intros H. exfalso. revert H.
  destruct sibs; [|now intros []]. unfold finish. destruct (negb _); [now intros []|].
  destruct (_ && _); [now intros []|]. cbn. intros [|[]]. discriminate.
Qed.
Lemma next_exec s rest need : In OExec (snd (next self sibs has_obj max_iter s rest need)) -> objects has_obj (en s) self = true.
Proof.
  unfold next. destruct rest as [|q r]; [|now intros []]. destruct need; [apply pass_exec|].
  intros H. exfalso. revert H. unfold finish. destruct (negb _); [now intros []|].
  destruct (_ && _); [now intros []|]. cbn. intros [|[]]. discriminate.
Qed.
Theorem C231_back ls l : In OExec (snd (step (state ls) l)) ->
  exists q, In q (self :: sibs) /\ has_obj q = true /\ tot (after ls) q <> 0.
Proof.
  intros H. pose proof (inv_all ls) as (_ & _ & I3).
  assert (Dl : l = LRun \/ l <> LRun) by (destruct l; auto; right; discriminate).
  destruct Dl as [->|Nl]; [|destruct (env_step ls l Nl) as (e & E); rewrite E in H; destruct H].
  cbn [EopModel.step] in H. unfold after.
  assert (O : forall e q, tot e = tot (en (state ls)) -> objects has_obj e q = true -> has_obj q = true /\ tot (en (state ls)) q <> 0).
  { intros e q E Ho. unfold objects in Ho. apply andb_true_iff in Ho as [Ho Hz].
    apply negb_true_iff, Nat.eqb_neq in Hz. rewrite E in Hz. auto. }
  assert (W : forall e, tot e = tot (en (state ls)) -> objects has_obj e self = true -> exists q, In q (self :: sibs) /\ has_obj q = true /\ tot (en (state ls)) q <> 0).
  { intros e E Ho. exists self. split; [now left|]. eapply O; eauto. }
  unfold resume in H. destruct (at_ (state ls)) as [| | | |q r need|q r| | | |] eqn:Ea; try (now destruct H).
  - destruct (_ && _) in H; destruct H.
  - apply pass_exec in H. eapply W; eauto.
  - apply next_exec in H. eapply W; eauto.
  - destruct I3 as (pre & Es & _). destruct (ev (en (state ls)) q); [|destruct H]. cbn zeta in H. cbn [en st tot] in H.
    destruct (EXECUTING <=? st (en (state ls)) q)%Z; [|destruct H].
    destruct (objects has_obj _ q) eqn:Eo in H.
    + exists q. split; [right; rewrite Es; apply in_elt|]. eapply O; [|exact Eo]. reflexivity.
    + apply next_exec in H. eapply W; [|exact H]. reflexivity.
  - apply next_exec in H. eapply W; eauto.
Qed.
End Eop.

(** Two phases that share a successor: phase 0 with sibling 1, which executes already. *)
Definition ex_env : env := Env (fun q => if q =? 0 then 1 else 0) (fun q => if q =? 1 then EXECUTING else 0%Z) (fun _ => true) false.
Definition ex_state := state 0 [1] (fun _ => true) false 20 ex_env.
Definition ex_outs := outs 0 [1] (fun _ => true) false 20 ex_env.
(** The phase has an objection, which is dropped; after the announcement another one is raised
    and dropped; it is announced again, and the phase ends. *)
Definition ex_trace : list lab :=
  [LRun; LTot 0 0; LRun; LRun; LRun; LRun; LTot 0 1; LRun; LRun; LRun; LTot 0 0; LRun; LState 1 EXECUTING; LRun;
   LState 1 EXECUTING; LRun; LRun; LRun; LRun; LRun; LState 1 READY_TO_END].
Example C231_example :
  ex_outs ex_trace = [OReady; OExec; OReady] /\
  snd (step 0 [1] (fun _ => true) false 20 (ex_state ex_trace) LRun) = [OEnd] /\
  ex_outs [LRun; LRun; LRun] = [OExec].
Proof. vm_compute. repeat split. Qed.
(** The own objection is not looked at again after the wait for the state of a sibling: one that
    is raised during that wait does not hold the phase. *)
Theorem C231_late_limit :
  exists ls, snd (step 0 [1] (fun _ => true) false 20 (ex_state ls) LRun) = [OEnd] /\ tot (en (ex_state ls)) 0 = 1.
Proof.
  exists [LTot 0 0; LRun; LRun; LRun; LRun; LRun; LRun; LRun; LTot 0 1; LState 1 EXECUTING].
  vm_compute. split; reflexivity.
Qed.
Print Assumptions C231_end.
Print Assumptions C231_ready.
Print Assumptions C231_held.
Print Assumptions C231_bound.
Print Assumptions C231_repeat.
Print Assumptions C231_back.
Print Assumptions C231_late_limit.
