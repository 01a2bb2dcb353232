From Coq Require Import List Bool Arith ZArith Lia Permutation.
From Verif Require Import Prelude ObjectionModel ObjectionSpec.
Import ListNotations.
Open Scope Z_scope.

(** ** Sums *)
Lemma zsum_S f n : zsum f (S n) = zsum f n + f n.
Proof.
  unfold zsum. rewrite seq_S, map_app, fold_right_app. cbn.
  rewrite Z.add_0_r. generalize (map f (seq 0 n)) as l. intros l.
  induction l as [|a l IH]; cbn; lia.
Qed.
Lemma zsum_ext f g n : (forall d, (d < n)%nat -> f d = g d) -> zsum f n = zsum g n.
Proof.
  induction n as [|n IH]; intros H; [reflexivity|]. rewrite !zsum_S, IH, H by (auto with arith). reflexivity.
Qed.
Lemma zsum_nonneg f n : (forall d, (d < n)%nat -> 0 <= f d) -> 0 <= zsum f n.
Proof.
  induction n as [|n IH]; intros H; [unfold zsum; cbn; lia|]. rewrite zsum_S.
  pose proof (H n ltac:(lia)). pose proof (IH ltac:(auto)). lia.
Qed.
Lemma zsum_upd f g n a v : (a < n)%nat -> (forall d, d <> a -> g d = f d) -> g a = f a + v ->
  zsum g n = zsum f n + v.
Proof.
  induction n as [|n IH]; intros Ha H1 H2; [lia|]. rewrite !zsum_S.
  destruct (Nat.eq_dec a n) as [->|Hn].
  - rewrite H2. rewrite (zsum_ext g f n) by (intros; apply H1; lia). lia.
  - rewrite (H1 n) by auto. rewrite IH by (auto; lia). lia.
Qed.
Lemma zsum_ge f n a : (forall d, (d < n)%nat -> 0 <= f d) -> (a < n)%nat -> f a <= zsum f n.
Proof.
  induction n as [|n IH]; intros H Ha; [lia|]. rewrite zsum_S.
  destruct (Nat.eq_dec a n) as [->|Hn].
  - pose proof (zsum_nonneg f n ltac:(auto)). lia.
  - pose proof (IH ltac:(auto) ltac:(lia)). pose proof (H n ltac:(lia)). lia.
Qed.

Section Proofs.
Context (parent : nat -> nat) (TR : tree parent) (n : nat).
Notation below := (below parent).
Notation m_drop := (m_drop parent).
Notation m_raise := (m_raise parent).

Lemma belowf_fuel : forall d f g o, (d <= f)%nat -> (d <= g)%nat ->
  belowf parent f o d = belowf parent g o d.
Proof.
  induction d as [d IH] using (well_founded_induction lt_wf). intros f g o Hf Hg.
  destruct f as [|f], g as [|g]; cbn; f_equal.
  - assert (d = 0%nat) by lia. subst. reflexivity.
  - assert (d = 0%nat) by lia. subst. reflexivity.
  - destruct (Nat.eqb_spec d 0) as [|Hd]; [auto|]. specialize (TR d Hd).
    apply IH; lia.
Qed.
Lemma below_eq o d : below o d = Nat.eqb o d || (negb (Nat.eqb d 0) && below o (parent d)).
Proof.
  unfold ObjectionSpec.below. destruct d as [|d].
  - cbn. reflexivity.
  - cbn [belowf]. cbn [Nat.eqb]. f_equal. cbn [negb andb].
    assert (parent (S d) < S d)%nat by (apply TR; lia).
    apply belowf_fuel; lia.
Qed.
Lemma below_refl o : below o o = true.
Proof. rewrite below_eq, Nat.eqb_refl. reflexivity. Qed.
Lemma below_le : forall d o, below o d = true -> (o <= d)%nat.
Proof.
  induction d as [d IH] using (well_founded_induction lt_wf). intros o H. rewrite below_eq in H.
  apply orb_true_iff in H as [H|H].
  - apply Nat.eqb_eq in H. lia.
  - apply andb_true_iff in H as [H1 H2]. apply negb_true_iff, Nat.eqb_neq in H1.
    pose proof (TR d H1). apply IH in H2; lia.
Qed.
Lemma below_trans : forall d o p, below o d = true -> below p o = true -> below p d = true.
Proof.
  induction d as [d IH] using (well_founded_induction lt_wf). intros o p H1 H2. rewrite below_eq in H1.
  apply orb_true_iff in H1 as [H|H].
  - apply Nat.eqb_eq in H. now subst.
  - apply andb_true_iff in H as [H3 H4]. rewrite below_eq, H3.
    apply negb_true_iff, Nat.eqb_neq in H3. rewrite (IH (parent d) (TR d H3) o p H4 H2).
    apply orb_true_r.
Qed.
(** strictly below: through the parent *)
Definition sbelow (o d : nat) : bool := negb (Nat.eqb d 0) && below o (parent d).
Lemma below_s o d : below o d = Nat.eqb o d || sbelow o d.
Proof. apply below_eq. Qed.
Lemma sbelow_irrefl o : sbelow o o = false.
Proof.
  unfold sbelow. destruct (Nat.eqb_spec o 0); [auto|]. cbn.
  apply not_true_iff_false. intros H. apply below_le in H. pose proof (TR o n0). lia.
Qed.
Lemma below_top d : below 0 d = true.
Proof.
  induction d as [d IH] using (well_founded_induction lt_wf). rewrite below_eq.
  destruct (Nat.eqb_spec 0 d) as [|H]; [auto|]. cbn [orb].
  destruct (Nat.eqb_spec d 0); [lia|]. cbn. apply IH, TR. lia.
Qed.

(** ** Expected totals *)
Definition pending (s : objn) : list ctx := sched s ++ flist s ++ map d_ctx (drain s).
Definition psum (o : nat) (l : list ctx) : Z :=
  fold_right Z.add 0 (map (fun c => if sbelow o (x_obj c) then x_cnt c else 0) l).
Lemma psum_app o l1 l2 : psum o (l1 ++ l2) = psum o l1 + psum o l2.
Proof. unfold psum. induction l1; cbn; [auto|]. cbn in *. rewrite IHl1. lia. Qed.
Lemma psum_cons o c l : psum o (c :: l) = (if sbelow o (x_obj c) then x_cnt c else 0) + psum o l.
Proof. reflexivity. Qed.
Definition ssum (f : nat -> Z) (o : nat) : Z := zsum (fun d => if below o d then f d else 0) n.
Definition expect (s : objn) (o : nat) : Z := ssum (src s) o + psum o (pending s).

Record Base (s : objn) : Prop := {
  b_src : forall d, 0 <= src s d;
  b_tot : forall d, 0 <= tot s d;
  b_cnt : forall c, In c (pending s) -> 0 < x_cnt c;
  b_zero : forall c, In c (pending s) -> tot s (x_obj c) = 0;
  b_nodup : NoDup (map x_obj (pending s));
  b_src_lt : forall c, In c (pending s) -> below (x_obj c) (x_src c) = true
}.
Definition FX (s : objn) : Prop :=
  forall o, fctx s o <> None <-> In o (map (fun p => x_obj (d_ctx p)) (drain s)).

Lemma psum_nonneg o l : (forall c, In c l -> 0 < x_cnt c) -> 0 <= psum o l.
Proof.
  induction l as [|c l IH]; intros H; [cbn; lia|]. rewrite psum_cons.
  pose proof (H c (or_introl eq_refl)). pose proof (IH (fun c Hc => H c (or_intror Hc))).
  destruct (sbelow o (x_obj c)); lia.
Qed.
Lemma expect_nonneg s o : Base s -> 0 <= expect s o.
Proof.
  intros B. unfold expect, ssum. pose proof (psum_nonneg o (pending s) (b_cnt s B)).
  assert (0 <= zsum (fun d => if below o d then src s d else 0) n).
  { apply zsum_nonneg. intros d _. destruct (below o d); [apply (b_src s B)|lia]. }
  lia.
Qed.
Lemma ssum_upd f o a v : (a < n)%nat ->
  ssum (upd f a (f a + v)) o = ssum f o + (if below o a then v else 0).
Proof.
  intros Ha. unfold ssum. apply (zsum_upd _ _ n a); auto.
  - intros d Hd. now rewrite upd_neq.
  - rewrite upd_eq. destruct (below o a); lia.
Qed.

(** ** Dropping *)
(** mismatch: totals exceed what is expected by [k] at the ancestors of [a] *)
Definition over (s : objn) (a : nat) (k : Z) : Prop :=
  forall o, tot s o = expect s o + (if below o a then k else 0).
Definition exact (s : objn) : Prop := forall o, tot s o = expect s o.

(** what a propagation leaves alone *)
Definition quietly (s s' : objn) : Prop :=
  src s' = src s /\ flist s' = flist s /\ nfork s' = nfork s /\ fctx s' = fctx s /\ drain s' = drain s.

Lemma pending_sched_app s c b : forall x,
  In x (pending (set_sched s (sched s ++ [c]) b)) <-> In x (pending s) \/ x = c.
Proof.
  intros x. unfold pending. cbn. rewrite !in_app_iff. cbn. intuition.
Qed.
Lemma psum_sched_app s c b o :
  psum o (pending (set_sched s (sched s ++ [c]) b)) =
  psum o (pending s) + (if sbelow o (x_obj c) then x_cnt c else 0).
Proof.
  unfold pending. cbn [sched flist drain set_sched]. rewrite !psum_app, psum_cons. cbn [psum map fold_right]. lia.
Qed.

(** no drop is refused on the way up, and the counts come out right *)
Lemma drop_up : forall fuel s o source k,
  (o < fuel)%nat -> (o < source)%nat -> 0 < k -> below o source = true ->
  Base s -> over s o k ->
  let '(s', outs) := m_drop fuel s o source k in
  Base s' /\ exact s' /\ quietly s s' /\
  (exists l, sched s' = sched s ++ l /\ (length l <= 1)%nat /\ (l <> [] -> ev s' = true) /\
     (forall c, In c l -> (x_obj c <= o)%nat) /\ (l = [] -> ev s' = ev s)) /\
  Forall (fun x => exists y, x = ODropped y) outs.
Proof.
  induction fuel as [|fuel IH]; intros s o source k Hf Hs Hk Hb B OV; [lia|].
  cbn [ObjectionModel.m_drop].
  destruct (Z.eqb_spec k 0); [lia|].
  pose proof (OV o) as To. rewrite below_refl in To.
  pose proof (expect_nonneg s o B) as EN.
  destruct (Z.gtb_spec k (tot s o)); [lia|].
  destruct (Nat.eqb_spec o source); [lia|]. cbn [andb].
  set (s1 := set_tot s (upd (tot s) o (tot s o - k))).
  assert (NP : forall c, In c (pending s) -> x_obj c <> o).
  { intros c Hc E. pose proof (b_zero s B c Hc). rewrite E in H0. lia. }
  assert (B1 : Base s1).
  { destruct B as [B1 B2 B3 B4 B5 B6]. constructor; auto.
    - intros d. cbn. unfold upd. destruct (Nat.eqb_spec d o) as [->|]; [lia|auto].
    - intros c Hc. cbn. rewrite upd_neq by (apply NP; exact Hc). apply B4. exact Hc. }
  assert (OV1 : forall x, tot s1 x = expect s1 x + (if sbelow x o then k else 0)).
  { intros x. change (expect s1 x) with (expect s x). cbn. unfold upd.
    destruct (Nat.eqb_spec x o) as [->|Hne].
    - rewrite sbelow_irrefl. lia.
    - rewrite OV, below_s. destruct (Nat.eqb_spec x o); [contradiction|]. reflexivity. }
  assert (T1 : tot s1 o = tot s o - k) by (cbn; now rewrite upd_eq).
  destruct (Z.eqb_spec (tot s1 o) 0) as [Z|NZ]; cbn [negb].
  - (* reaches zero: scheduled *)
    set (s2 := set_sched s1 (sched s1 ++ [Ctx o source k]) true).
    split; [|split; [|split; [|split]]].
    + destruct B1 as [C1 C2 C3 C4 C5 C6]. constructor; auto.
      * intros c Hc. apply pending_sched_app in Hc as [Hc| ->]; auto.
      * intros c Hc. apply pending_sched_app in Hc as [Hc| ->]; [apply C4; auto|auto].
      * unfold s2, pending. cbn [sched flist drain set_sched s1 set_tot].
        rewrite <- app_assoc. cbn [app]. rewrite map_app. cbn [map x_obj].
        unfold pending in C5. cbn [sched flist drain s1 set_tot] in C5. rewrite map_app in C5.
        apply NoDup_Add with (a := o) (l := map x_obj (sched s) ++ map x_obj (flist s ++ map d_ctx (drain s))).
        { apply Add_app. }
        split; [exact C5|]. rewrite <- map_app. intros Hin. apply in_map_iff in Hin as (c & Ec & Hc).
        apply (NP c); auto.
      * intros c Hc. apply pending_sched_app in Hc as [Hc| ->]; [apply C6; auto|exact Hb].
    + intros x. unfold expect, s2. rewrite psum_sched_app.
      change (tot (set_sched s1 (sched s1 ++ [Ctx o source k]) true) x) with (tot s1 x).
      rewrite OV1. unfold expect. cbn [x_obj x_cnt src set_sched]. lia.
    + repeat split.
    + exists [Ctx o source k]. split; [reflexivity|]. split; [cbn; lia|]. split; [auto|].
      split; [|discriminate]. intros c [<-|[]]. cbn. lia.
    + repeat constructor. eauto.
  - destruct (Nat.eqb_spec o 0) as [E0|N0]; cbn [negb].
    + split; [exact B1|]. split.
      { intros x. rewrite OV1. unfold sbelow. rewrite E0. cbn. lia. }
      split; [repeat split|]. split; [|repeat constructor; eauto].
      exists []. cbn. rewrite app_nil_r. repeat split; auto; try lia.
    + assert (HP : (parent o < o)%nat) by (apply TR; auto).
      assert (OV2 : over s1 (parent o) k).
      { intros x. rewrite OV1. unfold sbelow. destruct (Nat.eqb_spec o 0); [contradiction|]. reflexivity. }
      assert (Hb2 : below (parent o) source = true).
      { apply (below_trans source o); [auto|]. rewrite below_eq.
        destruct (Nat.eqb_spec o 0); [contradiction|]. rewrite below_refl. apply orb_true_r. }
      specialize (IH s1 (parent o) source k ltac:(lia) ltac:(lia) Hk Hb2 B1 OV2).
      destruct (m_drop fuel s1 (parent o) source k) as [s2 o2].
      destruct IH as (I1 & I2 & (Q1 & Q2 & Q3 & Q4 & Q5) & (l & L1 & L2 & L3 & L4 & L5) & I5).
      split; [auto|]. split; [auto|]. split; [repeat split; auto|].
      split; [|constructor; [eauto|auto]].
      exists l. split; [exact L1|]. split; [auto|]. split; [auto|]. split; [|auto].
      intros c Hc. apply L4 in Hc. lia.
Qed.

(** ** Raising *)
Definition under (s : objn) (a : nat) (k : Z) : Prop :=
  forall o, tot s o = expect s o - (if below o a then k else 0).

Lemma take_ctx_some o : forall l c l', take_ctx o l = Some (c, l') ->
  x_obj c = o /\ exists l1 l2, l = l1 ++ c :: l2 /\ l' = l1 ++ l2.
Proof.
  induction l as [|a l IH]; intros c l' H; cbn in H; [discriminate|].
  destruct (Nat.eqb_spec (x_obj a) o) as [E|E].
  - injection H as <- <-. split; [auto|]. exists [], l. auto.
  - destruct (take_ctx o l) as [[d m]|]; [|discriminate]. injection H as <- <-.
    destruct (IH d m eq_refl) as (A & l1 & l2 & -> & ->). split; [auto|]. exists (a :: l1), l2. auto.
Qed.
Lemma take_ctx_none o : forall l, take_ctx o l = None -> forall c, In c l -> x_obj c <> o.
Proof.
  induction l as [|a l IH]; intros H c Hc; [destruct Hc|]. cbn in H.
  destruct (Nat.eqb_spec (x_obj a) o); [discriminate|].
  destruct (take_ctx o l) as [[d m]|]; [discriminate|]. destruct Hc as [<-|Hc]; auto.
Qed.

Lemma nodup_remove_mid (l1 l2 : list ctx) c :
  NoDup (map x_obj (l1 ++ c :: l2)) ->
  NoDup (map x_obj (l1 ++ l2)) /\ forall d, In d (l1 ++ l2) -> x_obj d <> x_obj c.
Proof.
  rewrite !map_app. cbn [map]. intros H. apply NoDup_remove in H as [H1 H2]. split; [auto|].
  intros d Hd E. apply H2. rewrite <- map_app, <- E. now apply in_map.
Qed.

(** The effect of [find_ctx] on an object that is not being drained. *)
Lemma find_ctx_spec s o : fctx s o = None ->
  (forall p, In p (drain s) -> x_obj (d_ctx p) <> o) ->
  match find_ctx s o with
  | (None, s') => s' = s /\ forall c, In c (pending s) -> x_obj c <> o
  | (Some c, s') => x_obj c = o /\
      src s' = src s /\ tot s' = tot s /\ ev s' = ev s /\ nfork s' = nfork s /\
      fctx s' = fctx s /\ drain s' = drain s /\
      (exists l1 l2, pending s = l1 ++ c :: l2 /\ pending s' = l1 ++ l2) /\
      (exists l1 l2, (sched s = l1 ++ c :: l2 /\ sched s' = l1 ++ l2 /\ flist s' = flist s) \/
                     (sched s' = sched s /\ flist s = l1 ++ c :: l2 /\ flist s' = l1 ++ l2))
  end.
Proof.
  intros HF HD. unfold find_ctx.
  destruct (take_ctx o (sched s)) as [[c l]|] eqn:E1.
  - apply take_ctx_some in E1 as (A & l1 & l2 & E1 & ->). split; [auto|]. do 6 (split; [reflexivity|]).
    split; [|exists l1, l2; left; auto].
    exists l1, (l2 ++ flist s ++ map d_ctx (drain s)). unfold pending. cbn. rewrite E1.
    rewrite <- !app_assoc. auto.
  - pose proof (take_ctx_none o _ E1) as N1.
    destruct (take_ctx o (flist s)) as [[c l]|] eqn:E2.
    + apply take_ctx_some in E2 as (A & l1 & l2 & E2 & ->). split; [auto|]. do 6 (split; [reflexivity|]).
      split; [|exists l1, l2; right; auto].
      exists (sched s ++ l1), (l2 ++ map d_ctx (drain s)). unfold pending. cbn. rewrite E2.
      rewrite <- !app_assoc. auto.
    + pose proof (take_ctx_none o _ E2) as N2. rewrite HF. split; [auto|].
      intros c Hc. unfold pending in Hc. rewrite !in_app_iff in Hc.
      destruct Hc as [Hc|[Hc|Hc]]; auto. apply in_map_iff in Hc as (p & <- & Hp). auto.
Qed.

Lemma not_draining s o : FX s -> fctx s o = None -> forall p, In p (drain s) -> x_obj (d_ctx p) <> o.
Proof.
  intros B H p Hp E. assert (fctx s o <> None); [|auto]. apply B.
  apply in_map_iff. eauto.
Qed.

Definition sched_ok (s s' : objn) : Prop :=
  (length (sched s') <= length (sched s) + 1)%nat /\
  ((ev s = true \/ sched s = []) -> (ev s' = true \/ sched s' = [])) /\
  (length (flist s') <= length (flist s))%nat.

Lemma raise_up : forall fuel s o source k,
  (o < fuel)%nat -> (o < source)%nat -> 0 < k -> below o source = true ->
  (forall c, below c o = true -> fctx s c = None) ->
  Base s -> FX s -> under s o k ->
  let '(s', outs) := m_raise fuel s o source k in
  Base s' /\ exact s' /\ src s' = src s /\ fctx s' = fctx s /\ drain s' = drain s /\
  nfork s' = nfork s /\ sched_ok s s' /\
  Forall (fun x => exists y, x = ODropped y \/ x = ORaised y) outs.
Proof.
  induction fuel as [|fuel IH]; intros s o source k Hf Hs Hk Hb HG B F UN; [lia|].
  cbn [ObjectionModel.m_raise].
  destruct (Z.eqb_spec k 0); [lia|].
  destruct (Nat.eqb_spec o source); [lia|].
  set (s1 := set_tot s (upd (tot s) o (tot s o + k))).
  pose proof (HG o (below_refl o)) as HGo.
  pose proof (find_ctx_spec s1 o HGo (not_draining s o F HGo)) as FS.
  assert (Hb2 : o <> 0%nat -> below (parent o) source = true).
  { intros N0. apply (below_trans source o); [auto|]. rewrite below_eq.
    destruct (Nat.eqb_spec o 0); [contradiction|]. rewrite below_refl. apply orb_true_r. }
  assert (HG2 : o <> 0%nat -> forall c, below c (parent o) = true -> fctx s c = None).
  { intros N0 c Hc. apply HG. rewrite below_eq, Hc. destruct (Nat.eqb_spec o 0); [contradiction|].
    apply orb_true_r. }
  assert (SB : forall x, sbelow x o = true -> o <> 0%nat /\ below x (parent o) = true).
  { intros x Hx. unfold sbelow in Hx. destruct (Nat.eqb_spec o 0); [discriminate|]. auto. }
  assert (SB0 : o <> 0%nat -> forall x, sbelow x o = below x (parent o)).
  { intros N0 x. unfold sbelow. destruct (Nat.eqb_spec o 0); [contradiction|]. reflexivity. }
  destruct (find_ctx s1 o) as [[c|] s2].
  - destruct FS as (Eo & F1 & F2 & F3 & F4 & F5 & F6 & (l1 & l2 & P1 & P2) & FL).
    change (pending s1) with (pending s) in P1.
    change (src s1) with (src s) in F1. change (nfork s1) with (nfork s) in F4.
    change (fctx s1) with (fctx s) in F5. change (drain s1) with (drain s) in F6.
    change (ev s1) with (ev s) in F3.
    pose proof (b_nodup s B) as ND. rewrite P1 in ND. apply nodup_remove_mid in ND as [ND1 ND2].
    assert (Hc : In c (pending s)) by (rewrite P1; apply in_or_app; right; now left).
    pose proof (b_cnt s B c Hc) as Cpos.
    assert (IN2 : forall d, In d (pending s2) -> In d (pending s) /\ x_obj d <> o).
    { intros d Hd. rewrite P2 in Hd. split; [|rewrite <- Eo; auto].
      rewrite P1. apply in_or_app. apply in_app_or in Hd as [Hd|Hd]; [auto|right; now right]. }
    assert (B2 : Base s2).
    { destruct B as [B1 B2 B3 B4 B5 B6]. constructor.
      - rewrite F1. exact B1.
      - intros d. rewrite F2. cbn. unfold upd. destruct (Nat.eqb_spec d o); [pose proof (B2 o); lia|auto].
      - intros d Hd. apply IN2 in Hd as [Hd _]. auto.
      - intros d Hd. apply IN2 in Hd as [Hd Hne]. rewrite F2. cbn. rewrite upd_neq by auto. auto.
      - rewrite P2. exact ND1.
      - intros d Hd. apply IN2 in Hd as [Hd _]. auto. }
    assert (FX2 : FX s2) by (intros x; rewrite F5, F6; apply F).
    assert (E2 : forall x, expect s2 x = expect s x - (if sbelow x o then x_cnt c else 0)).
    { intros x. unfold expect. rewrite F1, P1, P2, !psum_app, psum_cons, Eo. cbn [src s1 set_tot]. lia. }
    assert (T2 : forall x, tot s2 x = expect s2 x + (if sbelow x o then x_cnt c - k else 0)).
    { intros x. rewrite F2, E2. cbn. unfold upd. destruct (Nat.eqb_spec x o) as [->|Hne].
      - rewrite UN, below_refl, sbelow_irrefl. lia.
      - rewrite UN, below_s. destruct (Nat.eqb_spec x o); [contradiction|]. cbn [orb].
        destruct (sbelow x o); lia. }
    assert (SO : sched_ok s s2).
    { unfold sched_ok. destruct FL as (m1 & m2 & [(G1 & G2 & G3)|(G1 & G2 & G3)]).
      - cbn [sched flist s1 set_tot] in *. rewrite G1, G2, G3, F3. rewrite !app_length. cbn.
        split; [lia|]. split; [|lia]. intros [H|H]; [left; auto|]. destruct m1; discriminate.
      - cbn [sched flist s1 set_tot] in *. rewrite G1, G2, G3, F3. rewrite !app_length. cbn.
        split; [lia|]. split; [auto|]. lia. }
    destruct (Z.eqb_spec (k - x_cnt c) 0) as [Z0|Z0]; cbn [orb].
    + split; [auto|]. split; [intros x; rewrite T2; destruct (sbelow x o); lia|].
      do 4 (split; [congruence|]). split; [exact SO|]. repeat constructor. eauto.
    + destruct (Nat.eqb_spec o 0) as [E0|N0].
      * split; [auto|]. split; [intros x; rewrite T2; unfold sbelow; rewrite E0; cbn; lia|].
        do 4 (split; [congruence|]). split; [exact SO|]. repeat constructor. eauto.
      * assert (HP : (parent o < o)%nat) by (apply TR; auto).
        destruct (Z.gtb_spec (k - x_cnt c) 0).
        -- assert (UN2 : under s2 (parent o) (k - x_cnt c)).
           { intros x. rewrite T2, SB0 by auto. destruct (below x (parent o)); lia. }
           assert (HG3 : forall c0, below c0 (parent o) = true -> fctx s2 c0 = None)
             by (rewrite F5; apply HG2; auto).
           specialize (IH s2 (parent o) source (k - x_cnt c) ltac:(lia) ltac:(lia) ltac:(lia) (Hb2 N0) HG3 B2 FX2 UN2).
           destruct (m_raise fuel s2 (parent o) source (k - x_cnt c)) as [s3 o2].
           destruct IH as (I1 & I2 & I3 & I4 & I5 & I6 & (J1 & J2 & J3) & I8).
           split; [auto|]. split; [auto|]. do 4 (split; [congruence|]). split.
           { destruct FL as (m1 & m2 & FL). destruct SO as (S1 & S2 & S3).
             unfold sched_ok. split; [|split; [auto|lia]].
             destruct FL as [(G1 & G2 & G3)|(G1 & G2 & G3)].
             - cbn [sched s1 set_tot] in *. rewrite G1. rewrite G2 in J1. rewrite app_length in *. cbn. lia.
             - cbn [sched s1 set_tot] in *. rewrite G1 in J1. lia. }
           cbn [app]. constructor; [eauto|auto].
        -- assert (OV2 : over s2 (parent o) (- (k - x_cnt c))).
           { intros x. rewrite T2, SB0 by auto. destruct (below x (parent o)); lia. }
           pose proof (drop_up fuel s2 (parent o) source (- (k - x_cnt c)) ltac:(lia) ltac:(lia)
             ltac:(lia) (Hb2 N0) B2 OV2) as D.
           destruct (m_drop fuel s2 (parent o) source (- (k - x_cnt c))) as [s3 o2].
           destruct D as (I1 & I2 & (Q1 & Q2 & Q3 & Q4 & Q5) & (l & L1 & L2 & L3 & L4 & L5) & I5).
           split; [auto|]. split; [auto|]. do 4 (split; [congruence|]). split.
           { destruct SO as (S1 & S2 & S3). unfold sched_ok. rewrite Q2, L1.
             destruct FL as (m1 & m2 & [(G1 & G2 & G3)|(G1 & G2 & G3)]);
               cbn [sched flist s1 set_tot] in *.
             - split; [|split; [|lia]].
               + rewrite G1, G2, !app_length. cbn. lia.
               + intros H1. destruct l as [|x l]; [|left; apply L3; discriminate].
                 rewrite L5, app_nil_r by auto. auto.
             - split; [|split; [|lia]].
               + rewrite G1, !app_length. lia.
               + intros H1. destruct l as [|x l]; [|left; apply L3; discriminate].
                 rewrite L5, app_nil_r by auto. auto. }
           cbn [app]. constructor; [eauto|]. eapply Forall_impl; [|exact I5].
           intros a [y ->]. eauto.
  - destruct FS as (-> & NP).
    assert (B1 : Base s1).
    { destruct B as [B1 B2 B3 B4 B5 B6]. constructor; auto.
      - intros d. cbn. unfold upd. destruct (Nat.eqb_spec d o); [pose proof (B2 o); lia|auto].
      - intros d Hd. cbn. rewrite upd_neq by (apply NP; auto). apply B4; auto. }
    assert (T1 : forall x, tot s1 x = expect s1 x - (if sbelow x o then k else 0)).
    { intros x. change (expect s1 x) with (expect s x). cbn. unfold upd.
      destruct (Nat.eqb_spec x o) as [->|Hne].
      - rewrite UN, below_refl, sbelow_irrefl. lia.
      - rewrite UN, below_s. destruct (Nat.eqb_spec x o); [contradiction|]. reflexivity. }
    destruct (Nat.eqb_spec o 0) as [E0|N0]; cbn [negb].
    + split; [auto|]. split; [intros x; rewrite T1; unfold sbelow; rewrite E0; cbn; lia|].
      do 4 (split; [reflexivity|]). split; [unfold sched_ok; cbn; split; [lia|split; [auto|lia]]|].
      repeat constructor. eauto.
    + assert (HP : (parent o < o)%nat) by (apply TR; auto).
      assert (UN2 : under s1 (parent o) k).
      { intros x. rewrite T1, SB0 by auto. reflexivity. }
      specialize (IH s1 (parent o) source k ltac:(lia) ltac:(lia) Hk (Hb2 N0) (HG2 N0) B1 F UN2).
      destruct (m_raise fuel s1 (parent o) source k) as [s3 o2].
      destruct IH as (I1 & I2 & I3 & I4 & I5 & I6 & I7 & I8).
      split; [auto|]. split; [auto|]. do 4 (split; [auto|]). split; [exact I7|].
      cbn [app]. constructor; [eauto|auto].
Qed.

(** ** The calls made by users *)
Lemma src_le_tot s d : (d < n)%nat -> Base s -> exact s -> src s d <= tot s d.
Proof.
  intros Hd B EX. rewrite EX. unfold expect.
  pose proof (psum_nonneg d (pending s) (b_cnt s B)).
  assert (src s d <= ssum (src s) d); [|lia]. unfold ssum.
  pose proof (zsum_ge (fun e => if below d e then src s e else 0) n d) as Z. cbn beta in Z.
  rewrite below_refl in Z. apply Z; auto. intros e _. destruct (below d e); [apply (b_src s B)|lia].
Qed.

Lemma net_app tr1 tr2 d : net (tr1 ++ tr2) d = net tr1 d + net tr2 d.
Proof. induction tr1 as [|[] tr1 IH]; cbn; lia. Qed.
Lemma net_silent outs d : Forall (fun x => exists y, x = ODropped y \/ x = ORaised y) outs -> net outs d = 0.
Proof. induction 1 as [|x l [y [->| ->]] H IH]; cbn; auto. Qed.

Lemma drop_src s d k : (d < n)%nat -> 0 < k <= src s d -> Base s -> exact s ->
  let '(s', outs) := m_drop (S d) s d d k in
  Base s' /\ exact s' /\ src s' = upd (src s) d (src s d - k) /\
  flist s' = flist s /\ nfork s' = nfork s /\ fctx s' = fctx s /\ drain s' = drain s /\
  (exists l, sched s' = sched s ++ l /\ (length l <= 1)%nat /\ (l <> [] -> ev s' = true) /\ (l = [] -> ev s' = ev s)) /\
  (exists outs', outs = OAcc d (- k) :: outs' /\ Forall (fun x => exists y, x = ODropped y) outs').
Proof.
  intros Hd [Hk Hs] B EX. pose proof (src_le_tot s d Hd B EX) as ST.
  cbn [ObjectionModel.m_drop].
  destruct (Z.eqb_spec k 0); [lia|].
  destruct (Z.gtb_spec k (tot s d)); [lia|].
  destruct (Z.gtb_spec k (src s d)); [lia|].
  rewrite Nat.eqb_refl. cbn [andb].
  set (s1 := set_tot (set_src s (upd (src s) d (src s d - k))) _).
  assert (Ts1 : tot s1 = upd (tot s) d (tot s d - k)) by reflexivity.
  assert (NP : forall c, In c (pending s) -> x_obj c <> d).
  { intros c Hc E. pose proof (b_zero s B c Hc). rewrite E in H1. lia. }
  assert (B1 : Base s1).
  { destruct B as [B1 B2 B3 B4 B5 B6]. constructor; auto.
    - intros e. cbn. unfold upd. destruct (Nat.eqb_spec e d) as [->|]; [lia|auto].
    - intros e. rewrite Ts1. unfold upd. destruct (Nat.eqb_spec e d) as [->|]; [lia|auto].
    - intros c Hc. rewrite Ts1. rewrite upd_neq by (apply NP; exact Hc). apply B4. exact Hc. }
  assert (E1 : forall x, expect s1 x = expect s x - (if below x d then k else 0)).
  { intros x. unfold expect. change (pending s1) with (pending s). cbn [src s1 set_tot set_src].
    replace (src s d - k) with (src s d + - k) by lia. rewrite ssum_upd by auto.
    destruct (below x d); lia. }
  assert (OV1 : forall x, tot s1 x = expect s1 x + (if sbelow x d then k else 0)).
  { intros x. rewrite E1, Ts1. unfold upd. rewrite below_s.
    destruct (Nat.eqb_spec x d) as [->|Hne].
    - rewrite sbelow_irrefl, EX. cbn [orb]. lia.
    - rewrite EX. cbn [orb]. destruct (sbelow x d); lia. }
  assert (T1 : tot s1 d = tot s d - k) by (rewrite Ts1; now rewrite upd_eq).
  destruct (Z.eqb_spec (tot s1 d) 0) as [Z|NZ]; cbn [negb].
  - set (s2 := set_sched s1 (sched s1 ++ [Ctx d d k]) true).
    split; [|split; [|split; [reflexivity|]]].
    + destruct B1 as [C1 C2 C3 C4 C5 C6]. constructor; auto.
      * intros c Hc. apply pending_sched_app in Hc as [Hc| ->]; auto.
      * intros c Hc. apply pending_sched_app in Hc as [Hc| ->]; [apply C4; auto|auto].
      * unfold s2, pending. cbn [sched flist drain set_sched s1 set_tot set_src].
        rewrite <- app_assoc. cbn [app]. rewrite map_app. cbn [map x_obj].
        unfold pending in C5. cbn [sched flist drain s1 set_tot set_src] in C5. rewrite map_app in C5.
        apply NoDup_Add with (a := d) (l := map x_obj (sched s) ++ map x_obj (flist s ++ map d_ctx (drain s))).
        { apply Add_app. }
        split; [exact C5|]. rewrite <- map_app. intros Hin. apply in_map_iff in Hin as (c & Ec & Hc).
        apply (NP c); auto.
      * intros c Hc. apply pending_sched_app in Hc as [Hc| ->]; [apply C6; auto|apply below_refl].
    + intros x. unfold expect, s2. rewrite psum_sched_app.
      change (tot (set_sched s1 (sched s1 ++ [Ctx d d k]) true) x) with (tot s1 x).
      rewrite OV1. unfold expect. cbn [x_obj x_cnt src set_sched]. lia.
    + do 4 (split; [reflexivity|]). split.
      * exists [Ctx d d k]. split; [reflexivity|]. split; [cbn; lia|]. split; [auto|discriminate].
      * exists [ODropped d]. split; [reflexivity|]. repeat constructor. eauto.
  - destruct (Nat.eqb_spec d 0) as [E0|N0]; cbn [negb].
    + split; [exact B1|]. split.
      { intros x. rewrite OV1. unfold sbelow. rewrite E0. cbn. lia. }
      do 5 (split; [reflexivity|]). split.
      * exists []. cbn. rewrite app_nil_r. repeat split; auto; try lia.
      * exists [ODropped d]. split; [reflexivity|]. repeat constructor. eauto.
    + assert (HP : (parent d < d)%nat) by (apply TR; auto).
      assert (OV2 : over s1 (parent d) k).
      { intros x. rewrite OV1. unfold sbelow. destruct (Nat.eqb_spec d 0); [contradiction|]. reflexivity. }
      assert (Hb2 : below (parent d) d = true).
      { rewrite below_eq. destruct (Nat.eqb_spec d 0); [contradiction|]. rewrite below_refl. apply orb_true_r. }
      pose proof (drop_up d s1 (parent d) d k HP HP Hk Hb2 B1 OV2) as D.
      destruct (m_drop d s1 (parent d) d k) as [s2 o2].
      destruct D as (I1 & I2 & (Q1 & Q2 & Q3 & Q4 & Q5) & (l & L1 & L2 & L3 & L4 & L5) & I5).
      split; [auto|]. split; [auto|]. split; [rewrite Q1; reflexivity|].
      split; [auto|]. split; [auto|]. split; [auto|]. split; [auto|]. split.
      * exists l. split; [exact L1|]. auto.
      * exists (ODropped d :: o2). split; [reflexivity|]. constructor; [eauto|auto].
Qed.

Lemma raise_src s d k : (d < n)%nat -> 0 < k ->
  (forall c, below c d = true -> fctx s c = None) ->
  Base s -> FX s -> exact s ->
  let '(s', outs) := m_raise (S d) s d d k in
  Base s' /\ exact s' /\ src s' = upd (src s) d (src s d + k) /\ fctx s' = fctx s /\ drain s' = drain s /\
  nfork s' = nfork s /\ sched_ok s s' /\
  (exists outs', outs = OAcc d k :: outs' /\
     Forall (fun x => exists y, x = ODropped y \/ x = ORaised y) outs').
Proof.
  intros Hd Hk HG B F EX. cbn [ObjectionModel.m_raise].
  destruct (Z.eqb_spec k 0); [lia|]. rewrite Nat.eqb_refl.
  set (s1 := set_src (set_tot s (upd (tot s) d (tot s d + k))) _).
  assert (Ss1 : src s1 = upd (src s) d (src s d + k)) by reflexivity.
  assert (Ts1 : tot s1 = upd (tot s) d (tot s d + k)) by reflexivity.
  assert (E1 : forall x, expect s1 x = expect s x + (if below x d then k else 0)).
  { intros x. unfold expect. change (pending s1) with (pending s). rewrite Ss1.
    rewrite ssum_upd by auto. destruct (below x d); lia. }
  pose proof (HG d (below_refl d)) as HGo.
  pose proof (find_ctx_spec s1 d HGo (not_draining s d F HGo)) as FS.
  assert (Hb2 : d <> 0%nat -> below (parent d) d = true).
  { intros N0. rewrite below_eq.
    destruct (Nat.eqb_spec d 0); [contradiction|]. rewrite below_refl. apply orb_true_r. }
  assert (HG2 : d <> 0%nat -> forall c, below c (parent d) = true -> fctx s c = None).
  { intros N0 c Hc. apply HG. rewrite below_eq, Hc. destruct (Nat.eqb_spec d 0); [contradiction|].
    apply orb_true_r. }
  assert (SB0 : d <> 0%nat -> forall x, sbelow x d = below x (parent d)).
  { intros N0 x. unfold sbelow. destruct (Nat.eqb_spec d 0); [contradiction|]. reflexivity. }
  destruct (find_ctx s1 d) as [[c|] s2].
  - destruct FS as (Eo & F1 & F2 & F3 & F4 & F5 & F6 & (l1 & l2 & P1 & P2) & FL).
    change (pending s1) with (pending s) in P1. change (nfork s1) with (nfork s) in F4.
    change (fctx s1) with (fctx s) in F5. change (drain s1) with (drain s) in F6.
    change (ev s1) with (ev s) in F3.
    pose proof (b_nodup s B) as ND. rewrite P1 in ND. apply nodup_remove_mid in ND as [ND1 ND2].
    assert (Hc : In c (pending s)) by (rewrite P1; apply in_or_app; right; now left).
    pose proof (b_cnt s B c Hc) as Cpos.
    assert (IN2 : forall e, In e (pending s2) -> In e (pending s) /\ x_obj e <> d).
    { intros e He. rewrite P2 in He. split; [|rewrite <- Eo; auto].
      rewrite P1. apply in_or_app. apply in_app_or in He as [He|He]; [auto|right; now right]. }
    assert (B2 : Base s2).
    { destruct B as [B1 B2 B3 B4 B5 B6]. constructor.
      - intros e. rewrite F1, Ss1. unfold upd. destruct (Nat.eqb_spec e d); [pose proof (B1 d); lia|auto].
      - intros e. rewrite F2, Ts1. unfold upd. destruct (Nat.eqb_spec e d); [pose proof (B2 d); lia|auto].
      - intros e He. apply IN2 in He as [He _]. auto.
      - intros e He. apply IN2 in He as [He Hne]. rewrite F2, Ts1. rewrite upd_neq by auto. auto.
      - rewrite P2. exact ND1.
      - intros e He. apply IN2 in He as [He _]. auto. }
    assert (FX2 : FX s2) by (intros x; rewrite F5, F6; apply F).
    assert (E2 : forall x, expect s2 x = expect s1 x - (if sbelow x d then x_cnt c else 0)).
    { intros x. unfold expect. rewrite F1. change (pending s1) with (pending s).
      rewrite P1, P2, !psum_app, psum_cons, Eo. lia. }
    assert (T2 : forall x, tot s2 x = expect s2 x + (if sbelow x d then x_cnt c - k else 0)).
    { intros x. rewrite F2, E2, Ts1, E1, below_s. unfold upd. destruct (Nat.eqb_spec x d) as [->|Hne].
      - rewrite EX, sbelow_irrefl. cbn [orb]. lia.
      - rewrite EX. cbn [orb]. destruct (sbelow x d); lia. }
    assert (SO : sched_ok s s2).
    { unfold sched_ok. destruct FL as (m1 & m2 & [(G1 & G2 & G3)|(G1 & G2 & G3)]).
      - change (sched s1) with (sched s) in G1. change (flist s1) with (flist s) in G3.
        rewrite G1, G2, G3, F3. rewrite !app_length. cbn.
        split; [lia|]. split; [|lia]. intros [H|H]; [left; auto|]. destruct m1; discriminate.
      - change (sched s1) with (sched s) in G1. change (flist s1) with (flist s) in G2.
        rewrite G1, G2, G3, F3. rewrite !app_length. cbn.
        split; [lia|]. split; [auto|]. lia. }
    destruct (Z.eqb_spec (k - x_cnt c) 0) as [Z0|Z0]; cbn [orb].
    + split; [auto|]. split; [intros x; rewrite T2; destruct (sbelow x d); lia|].
      do 4 (split; [congruence|]). split; [exact SO|].
      exists [ORaised d]. split; [reflexivity|]. repeat constructor. eauto.
    + destruct (Nat.eqb_spec d 0) as [E0|N0].
      * split; [auto|]. split; [intros x; rewrite T2; unfold sbelow; rewrite E0; cbn; lia|].
        do 4 (split; [congruence|]). split; [exact SO|].
        exists [ORaised d]. split; [reflexivity|]. repeat constructor. eauto.
      * assert (HP : (parent d < d)%nat) by (apply TR; auto).
        destruct (Z.gtb_spec (k - x_cnt c) 0).
        -- assert (UN2 : under s2 (parent d) (k - x_cnt c)).
           { intros x. rewrite T2, SB0 by auto. destruct (below x (parent d)); lia. }
           assert (HG3 : forall c0, below c0 (parent d) = true -> fctx s2 c0 = None)
             by (rewrite F5; apply HG2; auto).
           pose proof (raise_up d s2 (parent d) d (k - x_cnt c) HP HP ltac:(lia) (Hb2 N0) HG3 B2 FX2 UN2) as IH.
           destruct (m_raise d s2 (parent d) d (k - x_cnt c)) as [s3 o2].
           destruct IH as (I1 & I2 & I3 & I4 & I5 & I6 & (J1 & J2 & J3) & I8).
           split; [auto|]. split; [auto|]. do 4 (split; [congruence|]). split.
           { destruct FL as (m1 & m2 & FL). destruct SO as (S1 & S2 & S3).
             unfold sched_ok. split; [|split; [auto|lia]].
             destruct FL as [(G1 & G2 & G3)|(G1 & G2 & G3)]; change (sched s1) with (sched s) in G1.
             - rewrite G1. rewrite G2 in J1. rewrite app_length in *. cbn. lia.
             - rewrite G1 in J1. lia. }
           exists (ORaised d :: o2). split; [reflexivity|]. constructor; [eauto|auto].
        -- assert (OV2 : over s2 (parent d) (- (k - x_cnt c))).
           { intros x. rewrite T2, SB0 by auto. destruct (below x (parent d)); lia. }
           pose proof (drop_up d s2 (parent d) d (- (k - x_cnt c)) HP HP
             ltac:(lia) (Hb2 N0) B2 OV2) as D.
           destruct (m_drop d s2 (parent d) d (- (k - x_cnt c))) as [s3 o2].
           destruct D as (I1 & I2 & (Q1 & Q2 & Q3 & Q4 & Q5) & (l & L1 & L2 & L3 & L4 & L5) & I5).
           split; [auto|]. split; [auto|]. do 4 (split; [congruence|]). split.
           { destruct SO as (S1 & S2 & S3). unfold sched_ok. rewrite Q2, L1.
             destruct FL as (m1 & m2 & [(G1 & G2 & G3)|(G1 & G2 & G3)]);
               change (sched s1) with (sched s) in G1.
             - split; [|split; [|lia]].
               + rewrite G1, G2, !app_length. cbn. lia.
               + intros H1. destruct l as [|x l]; [|left; apply L3; discriminate].
                 rewrite L5, app_nil_r by auto. auto.
             - split; [|split; [|lia]].
               + rewrite G1, !app_length. lia.
               + intros H1. destruct l as [|x l]; [|left; apply L3; discriminate].
                 rewrite L5, app_nil_r by auto. auto. }
           exists (ORaised d :: o2). split; [reflexivity|]. constructor; [eauto|].
           eapply Forall_impl; [|exact I5]. intros a [y ->]. eauto.
  - destruct FS as (-> & NP).
    assert (B1 : Base s1).
    { destruct B as [B1 B2 B3 B4 B5 B6]. constructor; auto.
      - intros e. rewrite Ss1. unfold upd. destruct (Nat.eqb_spec e d); [pose proof (B1 d); lia|auto].
      - intros e. rewrite Ts1. unfold upd. destruct (Nat.eqb_spec e d); [pose proof (B2 d); lia|auto].
      - intros e He. rewrite Ts1. rewrite upd_neq by (apply NP; auto). apply B4; auto. }
    assert (T1 : forall x, tot s1 x = expect s1 x - (if sbelow x d then k else 0)).
    { intros x. rewrite E1, Ts1, below_s. unfold upd.
      destruct (Nat.eqb_spec x d) as [->|Hne].
      - rewrite EX, sbelow_irrefl. cbn [orb]. lia.
      - rewrite EX. cbn [orb]. destruct (sbelow x d); lia. }
    destruct (Nat.eqb_spec d 0) as [E0|N0]; cbn [negb].
    + split; [auto|]. split; [intros x; rewrite T1; unfold sbelow; rewrite E0; cbn; lia|].
      do 4 (split; [reflexivity|]). split; [unfold sched_ok; cbn; split; [lia|split; [auto|lia]]|].
      exists [ORaised d]. split; [reflexivity|]. repeat constructor. eauto.
    + assert (HP : (parent d < d)%nat) by (apply TR; auto).
      assert (UN2 : under s1 (parent d) k).
      { intros x. rewrite T1, SB0 by auto. reflexivity. }
      pose proof (raise_up d s1 (parent d) d k HP HP Hk (Hb2 N0) (HG2 N0) B1 F UN2) as IH.
      destruct (m_raise d s1 (parent d) d k) as [s3 o2].
      destruct IH as (I1 & I2 & I3 & I4 & I5 & I6 & I7 & I8).
      split; [auto|]. split; [auto|]. do 4 (split; [auto|]). split; [exact I7|].
      exists (ORaised d :: o2). split; [reflexivity|]. constructor; [eauto|auto].
Qed.

(** a refused drop *)
Lemma drop_refused fuel s d k : (0 < fuel)%nat -> k <> 0 -> (k > tot s d \/ k > src s d) ->
  m_drop fuel s d d k = (s, [OFatal d]).
Proof.
  intros Hf Hk H. destruct fuel as [|fuel]; [lia|]. cbn [ObjectionModel.m_drop].
  destruct (Z.eqb_spec k 0); [contradiction|].
  destruct (Z.gtb_spec k (tot s d)); [reflexivity|]. rewrite Nat.eqb_refl.
  destruct (Z.gtb_spec k (src s d)); [reflexivity|]. lia.
Qed.

(** ** Steps *)
Definition Inv (s : objn) (tr : list out) : Prop :=
  Base s /\ FX s /\ exact s /\ (forall d, src s d = net tr d).

Lemma psum_perm o l1 l2 : Permutation l1 l2 -> psum o l1 = psum o l2.
Proof. induction 1; rewrite ?psum_cons; try reflexivity; try rewrite !psum_cons; lia. Qed.
Lemma base_perm s s' : src s' = src s -> tot s' = tot s -> Permutation (pending s) (pending s') ->
  Base s -> Base s'.
Proof.
  intros E1 E2 P [B1 B2 B3 B4 B5 B6].
  assert (I : forall c, In c (pending s') -> In c (pending s)).
  { intros c Hc. apply Permutation_sym in P. apply (Permutation_in _ P Hc). }
  constructor.
  - now rewrite E1.
  - now rewrite E2.
  - auto.
  - intros c Hc. rewrite E2. auto.
  - apply (Permutation_NoDup (Permutation_map x_obj P) B5).
  - auto.
Qed.
Lemma exact_perm s s' : src s' = src s -> tot s' = tot s -> Permutation (pending s) (pending s') ->
  exact s -> exact s'.
Proof.
  intros E1 E2 P EX o. rewrite E2, EX. unfold expect. rewrite E1. now rewrite (psum_perm o _ _ P).
Qed.

Lemma nth_split_remove {A} (l : list A) i x : nth_error l i = Some x ->
  l = firstn i l ++ x :: skipn (S i) l.
Proof.
  revert i. induction l as [|a l IH]; intros [|i] H; cbn in *; try discriminate.
  - now injection H as ->.
  - f_equal. now apply IH.
Qed.

Lemma finish_pre s i c b : nth_error (drain s) i = Some (DProc c b) -> Base s -> FX s -> exact s ->
  let s1 := set_drain s (remove_nth i (drain s)) in
  Base s1 /\ (forall x, tot s1 x = expect s1 x + (if sbelow x (x_obj c) then x_cnt c else 0)) /\
  fctx s1 (x_obj c) <> None /\ 0 < x_cnt c /\ below (x_obj c) (x_src c) = true /\
  (forall x, x <> x_obj c -> (fctx s1 x <> None <-> In x (map (fun p => x_obj (d_ctx p)) (drain s1)))) /\
  ~ In (x_obj c) (map (fun p => x_obj (d_ctx p)) (drain s1)).
Proof.
  intros Hn B F EX s1. pose proof (nth_split_remove _ _ _ Hn) as SP.
  assert (P : pending s = (sched s ++ flist s ++ map d_ctx (firstn i (drain s))) ++ c :: map d_ctx (skipn (S i) (drain s))).
  { unfold pending. rewrite SP at 1. rewrite map_app. cbn [map d_ctx]. now rewrite !app_assoc. }
  assert (P1 : pending s1 = (sched s ++ flist s ++ map d_ctx (firstn i (drain s))) ++ map d_ctx (skipn (S i) (drain s))).
  { unfold pending, s1, remove_nth. cbn [sched flist drain set_drain]. rewrite map_app. now rewrite !app_assoc. }
  assert (Hc : In c (pending s)) by (rewrite P; apply in_or_app; right; now left).
  pose proof (b_nodup s B) as ND. rewrite P in ND. apply nodup_remove_mid in ND as [ND1 ND2].
  assert (IN1 : forall e, In e (pending s1) -> In e (pending s) /\ x_obj e <> x_obj c).
  { intros e He. rewrite P1 in He. split; [|auto].
    rewrite P. apply in_or_app. apply in_app_or in He as [He|He]; [auto|right; now right]. }
  assert (ND3 : ~ In (x_obj c) (map (fun p => x_obj (d_ctx p)) (drain s1))).
  { intros Hin. apply in_map_iff in Hin as (p & Ep & Hp). destruct (IN1 (d_ctx p)) as [_ Hne]; [|auto].
    unfold pending. rewrite !in_app_iff. right. right. now apply in_map. }
  split; [|split; [|split; [|split; [|split; [|split]]]]].
  - destruct B as [B1 B2 B3 B4 B5 B6]. constructor; auto.
    + intros e He. apply B3. now apply IN1.
    + intros e He. apply (B4 e). now apply IN1.
    + rewrite P1. exact ND1.
    + intros e He. apply B6. now apply IN1.
  - intros x. change (tot s1 x) with (tot s x). rewrite EX. unfold expect.
    change (src s1) with (src s). rewrite P, P1. rewrite !psum_app, psum_cons. lia.
  - change (fctx s1) with (fctx s). apply F. rewrite SP, map_app. apply in_or_app. right. now left.
  - apply (b_cnt s B c Hc).
  - apply (b_src_lt s B c Hc).
  - intros x Hx. change (fctx s1 x) with (fctx s x). rewrite (F x). rewrite SP at 1.
    unfold s1, remove_nth. cbn [drain set_drain]. rewrite !map_app. cbn [map d_ctx].
    rewrite !in_app_iff. cbn [In]. intuition. congruence.
  - exact ND3.
Qed.

Lemma below_parent o d : o <> 0%nat -> below o d = true -> below (parent o) d = true /\ (parent o < d)%nat.
Proof.
  intros N0 H. assert (HP : (parent o < o)%nat) by (apply TR; auto). split.
  - apply (below_trans d o); [auto|]. rewrite below_eq.
    destruct (Nat.eqb_spec o 0); [contradiction|]. rewrite below_refl. apply orb_true_r.
  - apply below_le in H. lia.
Qed.

(** what a step does, given the invariant *)
Lemma finish_ok s i c : nth_error (drain s) i = Some (DProc c true) -> Base s -> FX s -> exact s ->
  let '(s', outs) := ostep parent s (LFinish i) in
  Base s' /\ FX s' /\ exact s' /\ src s' = src s /\ flist s' = flist s /\ nfork s' = nfork s /\
  drain s' = remove_nth i (drain s) /\
  (exists l, sched s' = sched s ++ l /\ (length l <= 1)%nat /\ (l <> [] -> ev s' = true) /\ (l = [] -> ev s' = ev s)) /\
  Forall (fun x => exists y, x = ODropped y) outs.
Proof.
  intros Hn B F EX. pose proof (finish_pre s i c true Hn B F EX) as FP.
  cbn [ostep]. rewrite Hn. set (s1 := set_drain s (remove_nth i (drain s))) in *.
  destruct FP as (B1 & T1 & F1 & Cp & Hb & FX1 & FX2).
  assert (FXf : forall s2, fctx s2 = fctx s1 -> drain s2 = drain s1 ->
            FX (set_fctx s2 (upd (fctx s2) (x_obj c) None))).
  { intros s2 Q4 Q5 x. cbn. rewrite Q4, Q5. unfold upd. destruct (Nat.eqb_spec x (x_obj c)) as [->|Hx].
    - split; [congruence|]. intros Hi. contradiction.
    - apply FX1; auto. }
  destruct (Nat.eqb_spec (x_obj c) 0) as [E0|N0]; cbn [negb].
  - destruct (fctx s1 (x_obj c)) as [c'|] eqn:Ef; [|congruence].
    split; [|split; [|split]].
    + apply (base_perm s1); auto.
    + apply FXf; reflexivity.
    + apply (exact_perm s1); auto. intros x. rewrite T1. unfold sbelow. rewrite E0. cbn. lia.
    + do 4 (split; [reflexivity|]). split; [|constructor].
      exists []. cbn. rewrite app_nil_r. repeat split; auto; try lia.
  - destruct (below_parent _ _ N0 Hb) as [Hb2 Hlt].
    assert (OV : over s1 (parent (x_obj c)) (x_cnt c)).
    { intros x. rewrite T1. unfold sbelow. destruct (Nat.eqb_spec (x_obj c) 0); [contradiction|]. reflexivity. }
    pose proof (TR (x_obj c) N0) as HP.
    pose proof (drop_up (S (x_obj c)) s1 (parent (x_obj c)) (x_src c) (x_cnt c) ltac:(lia) Hlt Cp Hb2 B1 OV) as D.
    destruct (m_drop (S (x_obj c)) s1 (parent (x_obj c)) (x_src c) (x_cnt c)) as [s2 o2].
    destruct D as (I1 & I2 & (Q1 & Q2 & Q3 & Q4 & Q5) & (l & L1 & L2 & L3 & L4 & L5) & I5).
    rewrite Q4. destruct (fctx s1 (x_obj c)) as [c'|] eqn:Ef; [|congruence].
    split; [|split; [|split]].
    + apply (base_perm s2); auto.
    + rewrite <- Q4. apply FXf; auto.
    + apply (exact_perm s2); auto.
    + cbn. split; [rewrite Q1; reflexivity|]. split; [auto|]. split; [auto|]. split; [rewrite Q5; reflexivity|].
      split; [|auto]. exists l. auto.
Qed.

Lemma step_inv s tr l : calm parent n s l -> Inv s tr ->
  Inv (fst (ostep parent s l)) (tr ++ snd (ostep parent s l)).
Proof.
  intros C (B & F & EX & NT). destruct l as [d k|d k| | |i|i]; cbn [calm] in C.
  - destruct C as (Hd & Hk & HG). destruct (Z.eq_dec k 0) as [->|NZ].
    + cbn. rewrite app_nil_r. exact (conj B (conj F (conj EX NT))).
    + pose proof (raise_src s d k Hd ltac:(lia) HG B F EX) as R. cbn [ostep].
      destruct (m_raise (S d) s d d k) as [s' outs]. cbn [fst snd].
      destruct R as (R1 & R2 & R3 & R4 & R5 & R6 & R7 & o' & -> & R9).
      split; [auto|]. split; [intros x; rewrite R4, R5; apply F|]. split; [auto|].
      intros e. rewrite R3, net_app. cbn [net]. rewrite (net_silent _ e R9). unfold upd. rewrite <- NT.
      destruct (Nat.eqb_spec e d) as [->|He]; [rewrite Nat.eqb_refl; lia|].
      destruct (Nat.eqb_spec d e); [congruence|lia].
  - destruct C as (Hd & Hk). destruct (Z.eq_dec k 0) as [->|NZ].
    + cbn. rewrite app_nil_r. exact (conj B (conj F (conj EX NT))).
    + cbn [ostep]. destruct (Z_gt_le_dec k (src s d)) as [G|G].
      * rewrite drop_refused by (auto; lia). cbn [fst snd].
        split; [auto|]. split; [auto|]. split; [auto|]. intros e. rewrite net_app. cbn. rewrite NT. lia.
      * pose proof (drop_src s d k Hd ltac:(lia) B EX) as R.
        destruct (m_drop (S d) s d d k) as [s' outs]. cbn [fst snd].
        destruct R as (R1 & R2 & R3 & R4 & R5 & R6 & R7 & R8 & o' & -> & R9).
        split; [auto|]. split; [intros x; rewrite R6, R7; apply F|]. split; [auto|].
        intros e. rewrite R3, net_app. cbn [net].
        rewrite (net_silent o'); [|eapply Forall_impl; [|exact R9]; intros a [y ->]; eauto].
        unfold upd. rewrite <- NT.
        destruct (Nat.eqb_spec e d) as [->|He]; [rewrite Nat.eqb_refl; lia|].
        destruct (Nat.eqb_spec d e); [congruence|lia].
  - cbn [ostep]. destruct (ev s); [|cbn; rewrite app_nil_r; exact (conj B (conj F (conj EX NT)))].
    destruct (sched s) as [|c l] eqn:Es.
    + cbn [fst snd]. rewrite app_nil_r.
      assert (PP : Permutation (pending s) (pending (set_sched s [] false))).
      { unfold pending. rewrite Es. reflexivity. }
      split; [apply (base_perm s); auto|]. split; [exact F|]. split; [apply (exact_perm s); auto|auto].
    + cbn [fst snd]. rewrite app_nil_r.
      assert (PP : Permutation (pending s) (pending (set_flist (set_sched s l false) (flist s ++ [c]) (S (nfork s))))).
      { unfold pending. cbn. rewrite Es. rewrite <- app_assoc. cbn [app].
        rewrite !app_assoc. apply Permutation_cons_app. reflexivity. }
      split; [apply (base_perm s); auto|]. split; [exact F|]. split; [apply (exact_perm s); auto|auto].
  - cbn [ostep]. destruct (nfork s) as [|m] eqn:En; [cbn; rewrite app_nil_r; exact (conj B (conj F (conj EX NT)))|].
    destruct (flist s) as [|c l] eqn:Es.
    + cbn [fst snd]. rewrite app_nil_r.
      assert (PP : Permutation (pending s) (pending (set_flist s [] m))).
      { unfold pending. cbn. rewrite Es. reflexivity. }
      split; [apply (base_perm s); auto|]. split; [exact F|]. split; [apply (exact_perm s); auto|auto].
    + cbn [fst snd]. rewrite app_nil_r. set (s' := set_drain _ _).
      assert (PP : Permutation (pending s) (pending s')).
      { unfold pending. cbn. rewrite Es. rewrite map_app. cbn. apply Permutation_app_head.
        rewrite app_assoc. apply Permutation_cons_append. }
      split; [apply (base_perm s); auto|]. split; [|split; [apply (exact_perm s); auto|auto]].
      intros x. cbn. rewrite map_app, in_app_iff. cbn. unfold upd.
      destruct (Nat.eqb_spec x (x_obj c)) as [->|Hx].
      * split; [auto|]. discriminate.
      * rewrite (F x). split; [auto|]. intros [H|[H|[]]]; [auto|congruence].
  - cbn [ostep]. destruct (nth_error (drain s) i) as [[c [|]]|] eqn:En;
      [cbn; rewrite app_nil_r; exact (conj B (conj F (conj EX NT)))| |cbn; rewrite app_nil_r; exact (conj B (conj F (conj EX NT)))].
    cbn [fst snd]. pose proof (nth_split_remove _ _ _ En) as SP. set (s' := set_drain _ _).
    assert (PD : map d_ctx (drain s') = map d_ctx (drain s)).
    { rewrite SP. cbn [drain s' set_drain]. rewrite !map_app. reflexivity. }
    assert (PP : pending s' = pending s).
    { unfold pending. rewrite PD. reflexivity. }
    split; [apply (base_perm s); auto; rewrite PP; reflexivity|].
    split; [|split; [apply (exact_perm s); auto; rewrite PP; reflexivity|]].
    + intros x. change (fctx s' x) with (fctx s x). rewrite (F x).
      rewrite <- !(map_map d_ctx x_obj). now rewrite PD.
    + intros d. rewrite net_app. cbn. rewrite NT. lia.
  - destruct (nth_error (drain s) i) as [[c [|]]|] eqn:En;
      [|cbn [ostep]; rewrite En; cbn; rewrite app_nil_r; exact (conj B (conj F (conj EX NT)))
       |cbn [ostep]; rewrite En; cbn; rewrite app_nil_r; exact (conj B (conj F (conj EX NT)))].
    pose proof (finish_ok s i c En B F EX) as R. destruct (ostep parent s (LFinish i)) as [s' outs].
    destruct R as (R1 & R2 & R3 & R4 & _ & _ & _ & _ & R9). cbn [fst snd].
    split; [auto|]. split; [auto|]. split; [auto|]. intros d. rewrite R4, net_app.
    rewrite (net_silent outs); [rewrite NT; lia|]. eapply Forall_impl; [|exact R9]. intros a [y ->]; eauto.
Qed.

Lemma inv0 : Inv objn0 [].
Proof.
  split; [|split; [|split]].
  - constructor; cbn; try lia; try contradiction; auto. constructor.
  - intros o. cbn. split; [congruence|contradiction].
  - intros o. unfold expect, ssum. cbn. rewrite (zsum_ext _ (fun _ => 0)).
    + clear. induction n; [reflexivity|]. rewrite zsum_S. lia.
    + intros d _. destruct (below o d); reflexivity.
  - reflexivity.
Qed.

Lemma run_inv (P : objn -> list out -> Prop) (ok : objn -> label -> Prop) :
  (forall s tr l, ok s l -> P s tr -> P (fst (ostep parent s l)) (tr ++ snd (ostep parent s l))) ->
  forall ls s tr, run_ok parent ok s ls -> P s tr ->
  P (fst (run_machine (ostep parent) s ls)) (tr ++ snd (run_machine (ostep parent) s ls)).
Proof.
  intros HS. induction ls as [|l ls IH]; intros s tr HO HP; cbn.
  - now rewrite app_nil_r.
  - destruct HO as [H1 H2]. specialize (HS s tr l H1 HP).
    destruct (ostep parent s l) as [s1 o1]. cbn [fst snd] in *.
    specialize (IH s1 (tr ++ o1) H2 HS).
    destruct (run_machine (ostep parent) s1 ls) as [s2 o2]. cbn [fst snd] in *.
    now rewrite app_assoc.
Qed.

Lemma reach_inv ls : run_ok parent (calm parent n) objn0 ls ->
  Inv (fst (run_machine (ostep parent) objn0 ls)) (snd (run_machine (ostep parent) objn0 ls)).
Proof.
  intros H. exact (run_inv Inv (calm parent n) (fun s tr l => step_inv s tr l) ls objn0 [] H inv0).
Qed.

(** ** Draining *)
(** with a prompt background process no context is left behind *)
Definition Q (s : objn) : Prop :=
  (length (sched s) <= 1)%nat /\ (ev s = true \/ sched s = []) /\ (length (flist s) <= nfork s)%nat.
Lemma step_Q s tr l : calm parent n s l -> prompt s l -> Inv s tr -> Q s -> Q (fst (ostep parent s l)).
Proof.
  intros C PR (B & F & EX & NT) (Q1 & Q2 & Q3). destruct l as [d k|d k| | |i|i]; cbn [calm prompt] in C, PR.
  - destruct C as (Hd & Hk & HG). destruct (Z.eq_dec k 0) as [->|NZ]; [cbn; repeat split; auto|].
    pose proof (raise_src s d k Hd ltac:(lia) HG B F EX) as R. cbn [ostep].
    destruct (m_raise (S d) s d d k) as [s' outs]. cbn [fst].
    destruct R as (R1 & R2 & R3 & R4 & R5 & R6 & (S1 & S2 & S3) & R8). rewrite PR in S1.
    unfold Q. rewrite R6. cbn in S1. split; [lia|]. split; [auto|lia].
  - destruct C as (Hd & Hk). destruct (Z.eq_dec k 0) as [->|NZ]; [cbn; repeat split; auto|].
    cbn [ostep]. destruct (Z_gt_le_dec k (src s d)) as [G|G].
    + rewrite drop_refused by (auto; lia). repeat split; auto.
    + pose proof (drop_src s d k Hd ltac:(lia) B EX) as R.
      destruct (m_drop (S d) s d d k) as [s' outs]. cbn [fst].
      destruct R as (R1 & R2 & R3 & R4 & R5 & R6 & R7 & (l & L1 & L2 & L3 & L4) & R9).
      unfold Q. rewrite L1, PR, R4, R5. cbn. split; [auto|]. split; [|auto].
      destruct l; [right; reflexivity|left; apply L3; discriminate].
  - cbn [ostep]. destruct (ev s) eqn:Ev; [|cbn [fst]; unfold Q; rewrite Ev; auto].
    destruct (sched s) as [|c l] eqn:Es; cbn [fst]; unfold Q; cbn.
    + auto.
    + cbn in Q1. destruct l; [|cbn in Q1; lia]. rewrite app_length. cbn. split; [lia|]. split; [auto|lia].
  - cbn [ostep]. destruct (nfork s) as [|m] eqn:En; [cbn [fst]; unfold Q; rewrite En; auto|].
    destruct (flist s) as [|c l] eqn:Es; cbn [fst]; unfold Q; cbn.
    + split; [auto|]. split; [auto|lia].
    + cbn in Q3. split; [auto|]. split; [auto|lia].
  - cbn [ostep]. destruct (nth_error (drain s) i) as [[c [|]]|]; repeat split; auto.
  - destruct (nth_error (drain s) i) as [[c [|]]|] eqn:En;
      [|cbn [ostep]; rewrite En; repeat split; auto|cbn [ostep]; rewrite En; repeat split; auto].
    pose proof (finish_ok s i c En B F EX) as R. destruct (ostep parent s (LFinish i)) as [s' outs].
    destruct R as (R1 & R2 & R3 & R4 & R5 & R6 & R7 & (l & L1 & L2 & L3 & L4) & R9). cbn [fst].
    unfold Q. rewrite L1, PR, R5, R6. cbn. split; [auto|]. split; [|auto].
    destruct l; [right; reflexivity|left; apply L3; discriminate].
Qed.

(** ** Telling the top *)
Lemma told_app tr1 tr2 b : told (tr1 ++ tr2) b = told tr2 (told tr1 b).
Proof. revert b. induction tr1 as [|[o k|[|o]|o|[|o]|o|] tr1 IH]; intros b; cbn; auto. Qed.
Definition pend0 (s : objn) : Prop :=
  (exists c, In c (sched s ++ flist s) /\ x_obj c = 0%nat) \/
  (exists c, In (DProc c false) (drain s) /\ x_obj c = 0%nat).
Definition TI (s : objn) (tr : list out) : Prop := 0 < tot s 0 \/ pend0 s \/ told tr true = true.
Definition sched0 (s : objn) : Prop := exists c, In c (sched s) /\ x_obj c = 0%nat.
Lemma sched0_pend0 s : sched0 s -> pend0 s.
Proof. intros (c & H & E). left. exists c. rewrite in_app_iff. auto. Qed.

Definition mild (x : out) : Prop := match x with ORaised O | OAllDropped _ => False | _ => True end.
Lemma told_mild outs b : Forall mild outs -> told outs b = b.
Proof.
  induction 1 as [|x l H _ IH]; cbn; [auto|]. destruct x as [o k|[|o]|o|[|o]|o|]; cbn in H; tauto.
Qed.
Lemma mild_app l1 l2 : Forall mild l1 -> Forall mild l2 -> Forall mild (l1 ++ l2).
Proof. intros. apply Forall_app. auto. Qed.

Lemma drop_top : forall fuel s o source k,
  let '(s', outs) := m_drop fuel s o source k in
  Forall mild outs /\
  (0 < tot s' 0 \/ sched0 s' \/ tot s' 0%nat = tot s 0%nat) /\
  flist s' = flist s /\ nfork s' = nfork s /\ drain s' = drain s /\ fctx s' = fctx s /\
  exists l, sched s' = sched s ++ l /\ (length l <= 1)%nat /\ (forall c, In c l -> (x_obj c <= o)%nat).
Proof.
  induction fuel as [|fuel IH]; intros s o source k; cbn [ObjectionModel.m_drop].
  - split; [constructor|]. split; [auto|]. do 4 (split; [auto|]). exists []. rewrite app_nil_r. cbn. split; [auto|split; [lia|contradiction]].
  - assert (ID : forall outs, Forall mild outs ->
      Forall mild outs /\ (0 < tot s 0 \/ sched0 s \/ tot s 0%nat = tot s 0%nat) /\
      flist s = flist s /\ nfork s = nfork s /\ drain s = drain s /\ fctx s = fctx s /\
      exists l, sched s = sched s ++ l /\ (length l <= 1)%nat /\ (forall c, In c l -> (x_obj c <= o)%nat)).
    { intros outs Ho. split; [auto|]. split; [auto|]. do 4 (split; [auto|]). exists []. rewrite app_nil_r. cbn. split; [auto|split; [lia|contradiction]]. }
    destruct (Z.eqb_spec k 0); [apply ID; constructor|].
    destruct (Z.gtb_spec k (tot s o)) as [?|Hle]; [apply ID; repeat constructor|].
    destruct (Nat.eqb o source && (k >? src s o)); [apply ID; repeat constructor|]. clear ID.
    set (p := if Nat.eqb o source then _ else _).
    assert (P1 : tot (fst p) = tot s /\ sched (fst p) = sched s /\ flist (fst p) = flist s /\ nfork (fst p) = nfork s /\
                 drain (fst p) = drain s /\ fctx (fst p) = fctx s /\ Forall mild (snd p)).
    { unfold p. destruct (Nat.eqb o source); cbn; repeat split; auto. repeat constructor. }
    destruct p as [s0 o1]. cbn [fst snd] in P1. destruct P1 as (P1 & P2 & P3 & P4 & P5 & P6 & P7).
    set (s1 := set_tot s0 _).
    assert (T1 : tot s1 = upd (tot s) o (tot s o - k)) by (unfold s1; cbn; now rewrite P1).
    assert (To : tot s1 o = tot s o - k) by (rewrite T1; apply upd_eq).
    destruct (Z.eqb_spec (tot s1 o) 0) as [Z0|NZ]; cbn [negb].
    + split; [apply mild_app; [auto|repeat constructor]|]. split.
      * destruct o as [|o].
        -- right; left. exists (Ctx 0 source k). cbn. rewrite in_app_iff. cbn. auto.
        -- right; right. cbn [tot set_sched]. rewrite T1. apply upd_neq. discriminate.
      * cbn. do 4 (split; [auto|]). exists [Ctx o source k]. rewrite P2. split; [auto|]. split; [cbn; lia|].
        intros c [<-|[]]. cbn. lia.
    + destruct (Nat.eqb_spec o 0) as [->|N0]; cbn [negb].
      * split; [apply mild_app; [auto|repeat constructor]|]. split; [left; lia|].
        cbn. do 4 (split; [auto|]). exists []. rewrite app_nil_r. cbn. split; [auto|]. split; [lia|contradiction].
      * specialize (IH s1 (parent o) source k). destruct (m_drop fuel s1 (parent o) source k) as [s2 o2].
        destruct IH as (I1 & I2 & I3 & I4 & I5 & I6 & l & I7 & I8 & I9).
        split; [apply mild_app; [auto|constructor; [exact I|auto]]|]. split.
        { destruct I2 as [I2|[I2|I2]]; [auto|auto|]. right; right. rewrite I2, T1. now rewrite upd_neq by auto. }
        unfold s1 in I3, I4, I5, I6, I7. cbn in I3, I4, I5, I6, I7.
        do 4 (split; [congruence|]). exists l. split; [congruence|]. split; [auto|].
        intros c Hc. apply I9 in Hc. pose proof (TR o N0). lia.
Qed.

Lemma find_ctx_keeps s o : o <> 0%nat ->
  let s' := snd (find_ctx s o) in
  tot s' = tot s /\ drain s' = drain s /\ (pend0 s -> pend0 s').
Proof.
  intros N0. unfold find_ctx.
  assert (K : forall l c l', take_ctx o l = Some (c, l') -> forall e, In e l -> x_obj e = 0%nat -> In e l').
  { intros l c l' H e He E. apply take_ctx_some in H as (A & l1 & l2 & -> & ->).
    rewrite in_app_iff in *. destruct He as [He|[He|He]]; auto. congruence. }
  destruct (take_ctx o (sched s)) as [[c l]|] eqn:E1.
  - cbn. split; [auto|]. split; [auto|]. intros [(e & He & E)|H]; [|right; exact H].
    left. exists e. cbn. split; [|auto]. rewrite in_app_iff in *. destruct He as [He|He]; [|auto].
    left. eapply K; eauto.
  - destruct (take_ctx o (flist s)) as [[c l]|] eqn:E2.
    + cbn. split; [auto|]. split; [auto|]. intros [(e & He & E)|H]; [|right; exact H].
      left. exists e. cbn. split; [|auto]. rewrite in_app_iff in *. destruct He as [He|He]; [auto|].
      right. eapply K; eauto.
    + destruct (fctx s o); cbn; auto.
Qed.

Lemma pend0_ext s s' : (exists l, sched s' = sched s ++ l) -> flist s' = flist s -> drain s' = drain s ->
  pend0 s -> pend0 s'.
Proof.
  intros [l E1] E2 E3 [(c & Hc & E)|(c & Hc & E)].
  - left. exists c. rewrite E1, E2, !in_app_iff. rewrite in_app_iff in Hc. tauto.
  - right. exists c. rewrite E3. auto.
Qed.

Lemma raise_top : forall fuel s o source k, (o < fuel)%nat -> 0 < k -> 0 <= tot s 0%nat ->
  let '(s', outs) := m_raise fuel s o source k in
  0 < tot s' 0 \/ sched0 s' \/
  (tot s' 0%nat = tot s 0%nat /\ (pend0 s -> pend0 s') /\ Forall mild outs).
Proof.
  induction fuel as [|fuel IH]; intros s o source k Hf Hk T0; [lia|]. cbn [ObjectionModel.m_raise].
  destruct (Z.eqb_spec k 0); [lia|].
  set (s1 := set_tot s _).
  set (p := if Nat.eqb o source then _ else _).
  assert (P1 : tot (fst p) = tot s1 /\ sched (fst p) = sched s /\ flist (fst p) = flist s /\
               drain (fst p) = drain s /\ fctx (fst p) = fctx s /\ Forall mild (snd p)).
  { unfold p. destruct (Nat.eqb o source); cbn; repeat split; auto. repeat constructor. }
  destruct p as [s2 o1]. cbn [fst snd] in P1. destruct P1 as (P1 & P2 & P3 & P5 & P6 & P7).
  destruct (Nat.eq_dec o 0) as [->|N0].
  - (* the top itself *)
    assert (TT : 0 < tot s2 0%nat). { rewrite P1. unfold s1. cbn [tot set_tot]. rewrite upd_eq. lia. }
    destruct (find_ctx s2 0) as [[c|] s3] eqn:Ef.
    + assert (E3 : tot s3 = tot s2).
      { revert Ef. unfold find_ctx. destruct (take_ctx 0 (sched s2)) as [[? ?]|]; [|destruct (take_ctx 0 (flist s2)) as [[? ?]|];
          [|destruct (fctx s2 0)]]; intros [= <- <-]; reflexivity. }
      cbn [Nat.eqb]. rewrite orb_true_r. left. now rewrite E3.
    + assert (E3 : tot s3 = tot s2).
      { revert Ef. unfold find_ctx. destruct (take_ctx 0 (sched s2)) as [[? ?]|]; [|destruct (take_ctx 0 (flist s2)) as [[? ?]|];
          [|destruct (fctx s2 0)]]; intros [= <-]; reflexivity. }
      cbn [Nat.eqb negb]. left. now rewrite E3.
  - pose proof (find_ctx_keeps s2 o N0) as FK. destruct (find_ctx s2 o) as [oc s3]. cbn [snd] in FK.
    destruct FK as (K1 & K2 & K3).
    assert (T3 : tot s3 0%nat = tot s 0%nat) by (rewrite K1, P1; unfold s1; cbn [tot set_tot]; now rewrite upd_neq by auto).
    assert (PK : pend0 s -> pend0 s3).
    { intros Hp. apply K3. apply (pend0_ext s); auto. exists []. now rewrite app_nil_r. }
    assert (MR : Forall mild [ORaised o]) by (destruct o; [congruence|repeat constructor]).
    destruct (Nat.eqb_spec o 0); [contradiction|]. cbn [negb].
    pose proof (TR o N0) as HP.
    assert (UP : forall k', 0 < k' -> let '(s4, o2) := m_raise fuel s3 (parent o) source k' in
        0 < tot s4 0 \/ sched0 s4 \/
        (tot s4 0%nat = tot s 0%nat /\ (pend0 s -> pend0 s4) /\ Forall mild ((o1 ++ [ORaised o]) ++ o2))).
    { intros k' Hk'. specialize (IH s3 (parent o) source k' ltac:(lia) Hk' ltac:(lia)).
      destruct (m_raise fuel s3 (parent o) source k') as [s4 o2].
      destruct IH as [I1|[I1|(I1 & I2 & I3)]]; [auto|auto|]. right; right. split; [lia|]. split; [auto|].
      apply mild_app; [apply mild_app|]; auto. }
    destruct oc as [c|].
    + rewrite orb_false_r. destruct (Z.eqb_spec (k - x_cnt c) 0).
      * right; right. split; [auto|]. split; [auto|]. apply mild_app; auto.
      * destruct (Z.gtb_spec (k - x_cnt c) 0).
        -- specialize (UP (k - x_cnt c) ltac:(lia)).
           destruct (m_raise fuel s3 (parent o) source (k - x_cnt c)) as [s4 o2]. exact UP.
        -- pose proof (drop_top fuel s3 (parent o) source (- (k - x_cnt c))) as D.
           destruct (m_drop fuel s3 (parent o) source (- (k - x_cnt c))) as [s4 o2].
           destruct D as (D1 & [D2|[D2|D2]] & D3 & D4 & D5 & D6 & l & D7 & D8 & D9); [auto|auto|].
           right; right. split; [lia|]. split; [|apply mild_app; [apply mild_app|]; auto].
           intros Hp. apply (pend0_ext s3); auto. exists l; auto.
    + specialize (UP k Hk). destruct (m_raise fuel s3 (parent o) source k) as [s4 o2]. exact UP.
Qed.

Lemma step_TI s tr l : calm parent n s l -> Inv s tr -> TI s tr ->
  TI (fst (ostep parent s l)) (tr ++ snd (ostep parent s l)).
Proof.
  intros C (B & F & EX & NT) T. unfold TI in *. rewrite told_app.
  destruct l as [d k|d k| | |i|i]; cbn [calm] in C.
  - destruct C as (Hd & Hk & HG). destruct (Z.eq_dec k 0) as [->|NZ]; [cbn; auto|].
    pose proof (raise_top (S d) s d d k ltac:(lia) ltac:(lia) (b_tot s B 0)) as R. cbn [ostep].
    destruct (m_raise (S d) s d d k) as [s' outs]. cbn [fst snd].
    destruct R as [R|[R|(R1 & R2 & R3)]]; [auto|right; left; now apply sched0_pend0|].
    rewrite told_mild by auto. rewrite R1. tauto.
  - cbn [ostep]. pose proof (drop_top (S d) s d d k) as D.
    destruct (m_drop (S d) s d d k) as [s' outs]. cbn [fst snd].
    destruct D as (D1 & D2 & D3 & D4 & D5 & D6 & l & D7 & D8 & D9).
    rewrite told_mild by auto. destruct D2 as [D2|[D2|D2]]; [auto|right; left; now apply sched0_pend0|].
    rewrite D2. destruct T as [T|[T|T]]; auto. right; left. apply (pend0_ext s); auto. eauto.
  - cbn [ostep]. destruct (ev s); [|cbn; auto].
    destruct (sched s) as [|c l] eqn:Es; cbn [fst snd told tot set_sched set_flist].
    + destruct T as [T|[T|T]]; auto. right; left. apply (pend0_ext s); auto. exists []. cbn. now rewrite Es.
    + destruct T as [T|[T|T]]; auto. right; left. destruct T as [(e & He & E)|T]; [|right; exact T].
      left. exists e. cbn. rewrite Es in He. split; [|auto]. rewrite !in_app_iff in *. cbn in *. tauto.
  - cbn [ostep]. destruct (nfork s) as [|m]; [cbn; auto|].
    destruct (flist s) as [|c l] eqn:Es; cbn [fst snd told tot set_sched set_flist set_drain set_fctx].
    + destruct T as [T|[T|T]]; auto. right; left. apply (pend0_ext s); auto. exists []. now rewrite app_nil_r.
    + destruct T as [T|[T|T]]; auto. right; left. destruct T as [(e & He & E)|(e & He & E)].
      * rewrite Es in He. rewrite in_app_iff in He. destruct He as [He|[<-|He]].
        -- left. exists e. cbn. rewrite in_app_iff. auto.
        -- right. exists c. cbn. rewrite in_app_iff. cbn. auto.
        -- left. exists e. cbn. rewrite in_app_iff. auto.
      * right. exists e. cbn. rewrite in_app_iff. auto.
  - cbn [ostep]. destruct (nth_error (drain s) i) as [[c [|]]|] eqn:En; [cbn; auto| |cbn; auto].
    cbn [fst snd tot set_drain]. destruct T as [T|[T|T]]; [auto| |].
    + destruct T as [(e & He & E)|(e & He & E)].
      * right; left. left. exists e. auto.
      * pose proof (nth_split_remove _ _ _ En) as SP. rewrite SP in He.
        apply in_app_or in He as [He|[He|He]].
        -- right; left; right. exists e. cbn. rewrite in_app_iff. auto.
        -- injection He as <-. right; right. rewrite E. reflexivity.
        -- right; left; right. exists e. cbn. rewrite in_app_iff. cbn. auto.
    + right; right. rewrite T. destruct (x_obj c); reflexivity.
  - destruct (nth_error (drain s) i) as [[c [|]]|] eqn:En;
      [|cbn [ostep]; rewrite En; cbn; auto|cbn [ostep]; rewrite En; cbn; auto].
    cbn [ostep]. rewrite En.
    assert (RP : forall s2, sched0 s2 \/ (tot s2 0%nat = tot s 0%nat /\ exists l, sched s2 = sched s ++ l) \/ 0 < tot s2 0%nat ->
       flist s2 = flist s -> drain s2 = remove_nth i (drain s) ->
       forall outs, Forall mild outs -> 0 < tot s2 0 \/ pend0 s2 \/ told outs (told tr true) = true).
    { intros s2 H1 H2 H3 outs H4. rewrite told_mild by auto.
      destruct H1 as [H1|[[H1 [l H5]]|H1]]; [right; left; now apply sched0_pend0| |auto].
      rewrite H1. destruct T as [T|[T|T]]; auto. right; left. destruct T as [(e & He & E)|(e & He & E)].
      - left. exists e. rewrite H5, H2, !in_app_iff. rewrite in_app_iff in He. tauto.
      - right. exists e. rewrite H3. split; [|auto]. rewrite (nth_split_remove _ _ _ En) in He.
        unfold remove_nth. rewrite in_app_iff in *. cbn in He. destruct He as [He|[He|He]]; [auto|discriminate|auto]. }
    set (s1 := set_drain s _). set (p := if negb _ then _ else _).
    assert (PP : (sched0 (fst p) \/ (tot (fst p) 0%nat = tot s 0%nat /\ exists l, sched (fst p) = sched s ++ l) \/ 0 < tot (fst p) 0%nat) /\
      flist (fst p) = flist s /\ drain (fst p) = remove_nth i (drain s) /\ Forall mild (snd p)).
    { unfold p. destruct (negb (Nat.eqb (x_obj c) 0)).
      - pose proof (drop_top (S (x_obj c)) s1 (parent (x_obj c)) (x_src c) (x_cnt c)) as D.
        destruct (m_drop _ _ _ _ _) as [s2 o2]. cbn [fst snd].
        destruct D as (D1 & D2 & D3 & D4 & D5 & D6 & l & D7 & D8 & D9).
        split; [|auto]. destruct D2 as [D2|[D2|D2]]; auto. right; left. split; [auto|]. eauto.
      - cbn. split; [|repeat split; auto]. right; left. split; [auto|]. exists []. now rewrite app_nil_r. }
    destruct p as [s2 o2]. cbn [fst snd] in PP. destruct PP as (PP1 & PP2 & PP3 & PP4).
    destruct (fctx s2 (x_obj c)).
    + cbn [fst snd]. apply (RP (set_fctx s2 (upd (fctx s2) (x_obj c) None))); auto.
    + cbn [fst snd]. apply (RP s2); auto. apply mild_app; [auto|repeat constructor].
Qed.

(** ** Termination of the background work *)
Local Open Scope nat_scope.
Definition w (c : ctx) : nat := 20 * x_obj c.
Definition lsum (f : ctx -> nat) (l : list ctx) : nat := fold_right plus 0%nat (map f l).
Definition dw (p : dproc) : nat := w (d_ctx p) + (if d_notified p then 10 else 11).
Definition dsum (l : list dproc) : nat := fold_right plus 0%nat (map dw l).
Definition meas (s : objn) : nat :=
  lsum (fun c => w c + 18) (sched s) + (if ev s then 1 else 0) + lsum (fun c => w c + 15) (flist s) +
  nfork s + dsum (drain s).
Lemma lsum_app f l1 l2 : lsum f (l1 ++ l2) = (lsum f l1 + lsum f l2)%nat.
Proof. unfold lsum. induction l1; cbn; [auto|]. cbn in IHl1. rewrite IHl1. lia. Qed.
Lemma dsum_app l1 l2 : dsum (l1 ++ l2) = (dsum l1 + dsum l2)%nat.
Proof. unfold dsum. induction l1; cbn; [auto|]. cbn in IHl1. rewrite IHl1. lia. Qed.
Lemma lsum_cons f c l : lsum f (c :: l) = f c + lsum f l.
Proof. reflexivity. Qed.
Lemma dsum_cons c l : dsum (c :: l) = dw c + dsum l.
Proof. reflexivity. Qed.
Lemma step_meas s l : active s l -> (meas (fst (ostep parent s l)) < meas s)%nat.
Proof.
  destruct l as [d k|d k| | |i|i]; cbn [active]; intros A; try contradiction.
  - cbn [ostep]. rewrite A. destruct (sched s) as [|c l] eqn:Es; unfold meas;
      cbn [fst sched ev flist nfork drain set_sched set_flist]; rewrite ?A, Es.
    + lia.
    + rewrite lsum_app, !lsum_cons. cbn [lsum map fold_right]. lia.
  - cbn [ostep]. destruct (nfork s) as [|m] eqn:En; [congruence|].
    destruct (flist s) as [|c l] eqn:Es; unfold meas;
      cbn [fst sched ev flist nfork drain set_sched set_flist set_drain set_fctx]; rewrite ?Es, En.
    + lia.
    + rewrite dsum_app, !lsum_cons, dsum_cons. cbn [dsum map fold_right]. unfold dw. cbn [d_ctx d_notified]. lia.
  - destruct A as [c En]. cbn [ostep]. rewrite En. unfold meas.
    cbn [fst sched ev flist nfork drain set_sched set_flist set_drain set_fctx].
    pose proof (f_equal dsum (nth_split_remove _ _ _ En)) as DE.
    rewrite dsum_app, dsum_cons in DE. rewrite !dsum_app, !dsum_cons.
    unfold dw at 1 in DE. unfold dw at 1. cbn [d_ctx d_notified] in *. lia.
  - destruct A as [c En]. cbn [ostep]. rewrite En. set (s1 := set_drain s _).
    assert (D1 : (dsum (drain s1) + w c + 10 = dsum (drain s))%nat).
    { pose proof (f_equal dsum (nth_split_remove _ _ _ En)) as DE.
      rewrite dsum_app, dsum_cons in DE. unfold s1, remove_nth. cbn [drain set_drain].
      rewrite !dsum_app. unfold dw at 1 in DE. cbn [d_ctx d_notified] in *. lia. }
    set (p := if negb _ then _ else _).
    assert (M : (meas (fst p) < meas s)%nat).
    { unfold p. destruct (Nat.eqb_spec (x_obj c) 0) as [E0|N0]; cbn [negb].
      - cbn [fst]. unfold meas. change (sched s1) with (sched s). change (ev s1) with (ev s).
        change (flist s1) with (flist s). change (nfork s1) with (nfork s). lia.
      - pose proof (drop_top (S (x_obj c)) s1 (parent (x_obj c)) (x_src c) (x_cnt c)) as D.
        destruct (m_drop _ _ _ _ _) as [s2 o2]. cbn [fst].
        destruct D as (_ & D2 & D3 & D4 & D5 & D6 & l & D7 & D8 & D9).
        unfold meas. rewrite D7, D3, D4, D5, lsum_app. change (sched s1) with (sched s).
        change (flist s1) with (flist s). change (nfork s1) with (nfork s).
        assert (L : (lsum (fun c => w c + 18) l <= w c - 2)%nat /\ (2 <= w c)%nat).
        { pose proof (TR _ N0). unfold w. split; [|lia]. destruct l as [|x [|y l]]; [cbn; lia| |cbn in D8; lia].
          pose proof (D9 x (or_introl eq_refl)). cbn. lia. }
        destruct (ev s2), (ev s); lia. }
    destruct p as [s2 o2]. cbn [fst] in M.
    destruct (fctx s2 (x_obj c)); cbn [fst]; auto.
Qed.
Lemma active_bound ls : forall s, run_ok parent active s ls -> (length ls <= meas s)%nat.
Proof.
  induction ls as [|l ls IH]; intros s H; cbn; [lia|]. destruct H as [H1 H2].
  apply IH in H2. pose proof (step_meas s l H1). lia.
Qed.
End Proofs.
