(** Proofs about the hierarchy of address maps. *)
From Coq Require Import List Bool Arith Lia.
From Verif Require Import Prelude MtrModel MtrSpec.
Import ListNotations.

Lemma memb_in n l : memb n l = true <-> In n l.
Proof.
  unfold memb. rewrite existsb_exists. split.
  - intros (x & H & E). apply Nat.eqb_eq in E. now subst.
  - intros H. exists n. split; [exact H|apply Nat.eqb_refl].
Qed.
Lemma memb_out n l : memb n l = false <-> ~ In n l.
Proof. rewrite <- memb_in. destruct (memb n l); split; congruence. Qed.
Lemma eqo_eq a b : eqo a b = true <-> a = b.
Proof.
  destruct a as [x|], b as [y|]; cbn; try (split; congruence).
  rewrite Nat.eqb_eq. split; congruence.
Qed.

(** ** States that differ only in marks and settings *)
Definition skel_map (x y : amap) : Prop :=
  p_blk x = p_blk y /\ p_par x = p_par y /\ p_sub x = p_sub y /\ map fst (p_regs x) = map fst (p_regs y).
Definition skel (s t : ms) : Prop :=
  nb s = nb t /\ nm s = nm t /\ nr s = nr t /\ (forall r, rg s r = rg t r) /\
  (forall m, skel_map (mp s m) (mp t m)) /\
  (forall b, b_par (bl s b) = b_par (bl t b) /\ b_maps (bl s b) = b_maps (bl t b)).
Lemma skel_map_refl x : skel_map x x.
Proof. repeat split. Qed.
Lemma skel_refl s : skel s s.
Proof. repeat split. Qed.
Lemma skel_trans s t u : skel s t -> skel t u -> skel s u.
Proof.
  intros (A1 & A2 & A3 & A4 & A5 & A6) (B1 & B2 & B3 & B4 & B5 & B6). split; [congruence|]. split; [congruence|]. split; [congruence|].
  split; [intros r; now rewrite A4|]. split.
  - intros m. destruct (A5 m) as (? & ? & ? & ?), (B5 m) as (? & ? & ? & ?). repeat split; congruence.
  - intros b. destruct (A6 b), (B6 b). split; congruence.
Qed.
Lemma skel_set_mp s m x : skel_map (mp s m) x -> skel s (set_mp s m x).
Proof.
  intros H. repeat split; cbn; try reflexivity; destruct (Nat.eq_dec m0 m) as [->|N]; try rewrite upd_eq; try rewrite upd_neq by exact N;
    try reflexivity; apply H.
Qed.
Lemma mark_skel x : skel_map x (mark x).
Proof. repeat split. unfold mark. cbn. rewrite map_map. now apply map_ext. Qed.
Lemma fold_skel (g : amap -> amap) : (forall x, skel_map x (g x)) ->
  forall l s, skel s (fold_left (fun s c => set_mp s c (g (mp s c))) l s).
Proof.
  intros H. induction l as [|c l IH]; intros s; cbn [fold_left]; [apply skel_refl|].
  eapply skel_trans; [|apply IH]. apply skel_set_mp, H.
Qed.
Lemma init_map_skel s m : skel s (init_map s m).
Proof. unfold init_map. apply (fold_skel mark), mark_skel. Qed.
Lemma set_check_skel s m on : skel s (set_check s m on).
Proof. unfold set_check. apply (fold_skel (check_on on)). intros x. repeat split. Qed.
Lemma fold_init_skel l : forall s, skel s (fold_left init_map l s).
Proof.
  induction l as [|m l IH]; intros s; cbn [fold_left]; [apply skel_refl|].
  eapply skel_trans; [apply init_map_skel|apply IH].
Qed.
Lemma lock_one_skel s b : skel s (set_bl s b (lock_one (bl s b))).
Proof.
  repeat split; cbn; destruct (Nat.eq_dec b0 b) as [->|N]; try rewrite upd_eq; try rewrite upd_neq by exact N; reflexivity.
Qed.
Lemma lock_down_skel : forall k s b t, lock_down k s b = Some t -> skel s t /\ (forall m, mp t m = mp s m) /\
  (forall b, b_kids (bl t b) = b_kids (bl s b)).
Proof.
  induction k as [|k IH]; intros s b t; cbn [lock_down]; [discriminate|].
  destruct (b_lock (bl s b)); [intros [= <-]; split; [apply skel_refl|auto]|].
  assert (F : forall l s0 t, fold_left (fun o c => match o with Some s => lock_down k s c | None => None end) l (Some s0) = Some t ->
    skel s0 t /\ (forall m, mp t m = mp s0 m) /\ (forall b, b_kids (bl t b) = b_kids (bl s0 b))).
  { induction l as [|c l IHl]; intros s0 t0; cbn [fold_left]; [intros [= <-]; split; [apply skel_refl|auto]|].
    destruct (lock_down k s0 c) as [s1|] eqn:E.
    - intros H. destruct (IH _ _ _ E) as (A & A2 & A3). destruct (IHl _ _ H) as (B & B2 & B3). split; [eapply skel_trans; eauto|]. split; intros; [now rewrite B2|now rewrite B3].
    - intros H. exfalso. clear -H. induction l as [|d l IH]; cbn in H; [discriminate|auto]. }
  intros H. destruct (F _ _ _ H) as (A & A2 & A3). split; [eapply skel_trans; [apply lock_one_skel|exact A]|]. split; [intros m; now rewrite A2|].
  intros b0. rewrite A3. cbn. destruct (Nat.eq_dec b0 b) as [->|N]; [now rewrite upd_eq|now rewrite upd_neq].
Qed.

(** ** Invariant *)
Record inv (s : ms) (tr : list out) : Prop := Inv {
  v_bpar : forall b p, b_par (bl s b) = Some p -> p < b < nb s;
  v_blk : forall m, m < nm s -> p_blk (mp s m) < nb s;
  v_bmaps : forall b m, In m (b_maps (bl s b)) <-> m < nm s /\ p_blk (mp s m) = b;
  v_par : forall c p, p_par (mp s c) = Some p <-> In (OJoined p c) tr;
  v_sub : forall p, p_sub (mp s p) = subs_of tr p;
  v_joined : forall p c, In (OJoined p c) tr -> p < nm s /\ c < nm s /\ block_below s (p_blk (mp s p)) (p_blk (mp s c));
  v_nodup : forall p, NoDup (subs_of tr p);
  v_rmaps : forall r, r_maps (rg s r) = maps_of tr r;
  v_regs : forall m, map fst (p_regs (mp s m)) = regs_of tr m;
  v_added : forall m r, In (OAdded m r) tr -> m < nm s /\ r < nr s /\ r_blk (rg s r) = p_blk (mp s m);
  v_mnodup : forall r, NoDup (maps_of tr r);
  v_rnodup : forall m, NoDup (regs_of tr m) }.

Lemma in_maps_of tr r m : In m (maps_of tr r) <-> In (OAdded m r) tr.
Proof.
  unfold maps_of. rewrite in_flat_map. split.
  - intros (o & H & I). destruct o as [| | |m' r'|]; try easy. destruct (Nat.eqb_spec r' r); [subst|easy]. destruct I as [->|[]]. exact H.
  - intros H. exists (OAdded m r). split; [exact H|]. rewrite Nat.eqb_refl. now left.
Qed.
Lemma in_regs_of tr m r : In r (regs_of tr m) <-> In (OAdded m r) tr.
Proof.
  unfold regs_of. rewrite in_flat_map. split.
  - intros (o & H & I). destruct o as [| | |m' r'|]; try easy. destruct (Nat.eqb_spec m' m); [subst|easy]. destruct I as [->|[]]. exact H.
  - intros H. exists (OAdded m r). split; [exact H|]. rewrite Nat.eqb_refl. now left.
Qed.
Lemma in_subs_of tr p c : In c (subs_of tr p) <-> In (OJoined p c) tr.
Proof.
  unfold subs_of. rewrite in_flat_map. split.
  - intros (o & H & I). destruct o as [| | | |p' c']; try easy. destruct (Nat.eqb_spec p' p); [subst|easy]. destruct I as [->|[]]. exact H.
  - intros H. exists (OJoined p c). split; [exact H|]. rewrite Nat.eqb_refl. now left.
Qed.
Definition quiet (o : list out) : Prop := Forall (fun x => match x with OAdded _ _ | OJoined _ _ => False | _ => True end) o.
Lemma quiet_in o : quiet o -> (forall m r, ~ In (OAdded m r) o) /\ (forall p c, ~ In (OJoined p c) o).
Proof. unfold quiet. rewrite Forall_forall. intros H. split; intros a b I; exact (H _ I). Qed.
Lemma quiet_lists o : quiet o -> (forall r, maps_of o r = []) /\ (forall m, regs_of o m = []) /\ (forall p, subs_of o p = []).
Proof.
  intros Q. induction Q as [|x o H Q (I1 & I2 & I3)]; [repeat split|]. unfold maps_of, regs_of, subs_of in *.
  repeat split; intros; cbn [flat_map]; rewrite ?I1, ?I2, ?I3; destruct x; try reflexivity; destruct H.
Qed.
Lemma maps_app a b r : maps_of (a ++ b) r = maps_of a r ++ maps_of b r. Proof. apply flat_map_app. Qed.
Lemma regs_app a b r : regs_of (a ++ b) r = regs_of a r ++ regs_of b r. Proof. apply flat_map_app. Qed.
Lemma subs_app a b r : subs_of (a ++ b) r = subs_of a r ++ subs_of b r. Proof. apply flat_map_app. Qed.

Lemma block_below_mono s t y x : (forall b p, b_par (bl s b) = Some p -> b_par (bl t b) = Some p) -> block_below s y x -> block_below t y x.
Proof. intros H B. induction B; [apply bb_child; auto|eapply bb_down; eauto]. Qed.
Lemma block_below_lt s y x : (forall b p, b_par (bl s b) = Some p -> p < b < nb s) -> block_below s y x -> y < x < nb s.
Proof. intros H B. induction B as [x E|x p E B IH]; specialize (H _ _ E); lia. Qed.

Lemma inv_skel s t tr o : inv s tr -> skel s t -> quiet o -> inv t (tr ++ o).
Proof.
  intros V (A1 & A2 & A3 & A4 & A5 & A6) Q. destruct (quiet_lists o Q) as (Q1 & Q2 & Q3). destruct (quiet_in o Q) as (Q4 & Q5).
  assert (J : forall p c, In (OJoined p c) (tr ++ o) <-> In (OJoined p c) tr).
  { intros p c. rewrite in_app_iff. split; [intros [H|H]; [exact H|now apply Q5 in H]|auto]. }
  assert (D : forall m r, In (OAdded m r) (tr ++ o) <-> In (OAdded m r) tr).
  { intros m r. rewrite in_app_iff. split; [intros [H|H]; [exact H|now apply Q4 in H]|auto]. }
  constructor.
  - intros b p. rewrite <- (proj1 (A6 b)), <- A1. apply V.
  - intros m. rewrite <- A2, <- (proj1 (A5 m)), <- A1. apply V.
  - intros b m. rewrite <- (proj2 (A6 b)), <- A2, <- (proj1 (A5 m)). apply V.
  - intros c p. destruct (A5 c) as (_ & <- & _). rewrite J. apply V.
  - intros p. destruct (A5 p) as (_ & _ & <- & _). rewrite subs_app, Q3, app_nil_r. apply V.
  - intros p c. rewrite J. intros H. apply V in H as (H1 & H2 & H3). rewrite <- A2, <- (proj1 (A5 p)), <- (proj1 (A5 c)). repeat split; auto.
    eapply block_below_mono; [|exact H3]. intros b q. now rewrite <- (proj1 (A6 b)).
  - intros p. rewrite subs_app, Q3, app_nil_r. apply V.
  - intros r. rewrite <- A4, maps_app, Q1, app_nil_r. apply V.
  - intros m. destruct (A5 m) as (_ & _ & _ & <-). rewrite regs_app, Q2, app_nil_r. apply V.
  - intros m r. rewrite D, <- A2, <- A3, <- A4, <- (proj1 (A5 m)). apply V.
  - intros r. rewrite maps_app, Q1, app_nil_r. apply V.
  - intros m. rewrite regs_app, Q2, app_nil_r. apply V.
Qed.
Lemma inv_init : inv init [].
Proof. constructor; cbn; try easy; try (intros; constructor). Qed.

(** ** Walks *)
Lemma reaches_spec s tr (V : inv s tr) y : forall k b, (match b with Some b => S b < k /\ b < nb s | None => 0 < k end) ->
  exists o, reaches k s b y = Some o /\
    (o = true <-> exists x, b = Some x /\ block_below s y x).
Proof.
  induction k as [|k IH]; intros b H; [destruct b; lia|]. cbn [reaches]. destruct b as [b|].
  2:{ exists false. split; [reflexivity|]. split; [discriminate|]. intros (x & E & _). discriminate. }
  destruct (eqo (b_par (bl s b)) (Some y)) eqn:E.
  - apply eqo_eq in E. exists true. split; [reflexivity|]. split; [|reflexivity]. intros _. exists b. split; [reflexivity|now apply bb_child].
  - assert (E' : b_par (bl s b) <> Some y) by (rewrite <- eqo_eq; congruence).
    destruct (IH (b_par (bl s b))) as (o & Eo & Ho).
    { destruct (b_par (bl s b)) as [p|] eqn:Ep; [|lia]. apply (v_bpar _ _ V) in Ep. lia. }
    exists o. split; [exact Eo|]. rewrite Ho. split.
    + intros (x & Ex & B). exists b. split; [reflexivity|]. eapply bb_down; eauto.
    + intros (x & [= <-] & B). inversion B as [? C|? p C D]; subst; [congruence|]. exists p. auto.
Qed.

Lemma last_cons (l : list nat) : forall p d, last (p :: l) d = last l p.
Proof. induction l as [|a l IH]; intros p d; [reflexivity|]. change (last (p :: a :: l) d) with (last (a :: l) d). rewrite !IH. reflexivity. Qed.
Section Walk.
Context (s : ms) (tr : list out) (V : inv s tr).
Lemma joined_blk p c : In (OJoined p c) tr -> p_blk (mp s p) < p_blk (mp s c) < nb s.
Proof. intros H. apply (v_joined _ _ V) in H as (_ & _ & B). eapply block_below_lt; [apply V|exact B]. Qed.
Lemma joined_one p q c : In (OJoined p c) tr -> In (OJoined q c) tr -> p = q.
Proof. intros H1 H2. apply (v_par _ _ V) in H1, H2. congruence. Qed.
Lemma under_blk m c : under tr m c -> m = c \/ p_blk (mp s m) < p_blk (mp s c).
Proof. intros U. induction U as [|p c J U IH]; [now left|]. right. apply joined_blk in J. destruct IH as [->|IH]; lia. Qed.
Lemma strictly_blk m c : strictly tr m c -> p_blk (mp s m) < p_blk (mp s c).
Proof. intros (p & J & U). apply joined_blk in J. apply under_blk in U as [->|U]; lia. Qed.
Lemma under_trans a b c : under tr a b -> under tr b c -> under tr a c.
Proof. intros U W. induction W; [exact U|eapply under_sub; eauto]. Qed.
Lemma under_split m c : under tr m c -> m = c \/ strictly tr m c.
Proof. intros U. inversion U as [|p x J U']; subst; [now left|]. right. now exists p. Qed.
Lemma strictly_under m c : strictly tr m c -> under tr m c.
Proof. intros (p & J & U). eapply under_sub; eauto. Qed.
Lemma above_spec : forall k m, p_blk (mp s m) < k -> exists l, above k s m = Some l /\
  (forall x, In x l <-> strictly tr x m) /\ under tr (last l m) m /\ p_par (mp s (last l m)) = None.
Proof.
  induction k as [|k IH]; intros m H; [lia|]. cbn [above]. destruct (p_par (mp s m)) as [p|] eqn:E.
  - assert (J := E). apply (v_par _ _ V) in J. destruct (IH p) as (l & El & Hl & U & R); [apply joined_blk in J; lia|].
    rewrite El. exists (p :: l). split; [reflexivity|]. split; [|split].
    + intros x. cbn [In]. rewrite Hl. split.
      * intros [<-|H2]; [exists p; split; [exact J|constructor]|]. exists p. split; [exact J|now apply strictly_under].
      * intros (q & J2 & U2). rewrite (joined_one _ _ _ J2 J) in U2. apply under_split in U2 as [->|U2]; auto.
    + replace (last (p :: l) m) with (last l p) by (now rewrite last_cons).
      eapply under_sub; eauto.
    + replace (last (p :: l) m) with (last l p) by (now rewrite last_cons).
      exact R.
  - exists []. split; [reflexivity|]. split; [|split; [constructor|exact E]]. intros x. split; [easy|]. intros (q & J & _). apply (v_par _ _ V) in J. congruence.
Qed.
(** maps that do not exist have no parent and are in block 0 *)
Lemma ups_spec m : m < nm s -> above (S (nb s)) s m = Some (ups s m) /\ (forall x, In x (ups s m) <-> strictly tr x m) /\
  under tr (root s m) m /\ p_par (mp s (root s m)) = None.
Proof.
  intros H. destruct (above_spec (S (nb s)) m) as (l & E & A); [assert (X := v_blk _ _ V m H); lia|].
  unfold root, ups. rewrite E. auto.
Qed.

Section Coll.
Context {A : Type} (f : nat -> list A).
(** what collect gives, as one list *)
Lemma collect_spec : forall k m, m < nm s -> nb s <= k + p_blk (mp s m) -> 0 < k ->
  exists l, collect (fun m => [m]) k s m = Some l /\ collect f k s m = Some (flat_map f l) /\
    (forall x, In x l <-> under tr m x) /\ NoDup l.
Proof.
  induction k as [|k IH]; intros m Hm H K; [lia|]. cbn [collect]. rewrite (v_sub _ _ V).
  assert (F : forall cs a, NoDup cs -> (forall c, In c cs -> In (OJoined m c) tr) ->
    exists l, fold_left (fun o c => match o, collect (fun m => [m]) k s c with Some l, Some l2 => Some (l ++ l2) | _, _ => None end) cs (Some a) = Some (a ++ l) /\
      (forall b, fold_left (fun o c => match o, collect f k s c with Some l, Some l2 => Some (l ++ l2) | _, _ => None end) cs (Some b) = Some (b ++ flat_map f l)) /\
      (forall x, In x l <-> exists c, In c cs /\ under tr c x) /\ NoDup l).
  { induction cs as [|c cs IHc]; intros a Nd Hc; cbn [fold_left].
    { exists []. rewrite app_nil_r. split; [reflexivity|]. split; [intros b; now rewrite app_nil_r|]. split; [|constructor].
      intros x. split; [easy|intros (c & [] & _)]. }
    inversion Nd as [|? ? Nc Nd']; subst.
    assert (Jc := Hc c (or_introl eq_refl)). assert (Lt := joined_blk _ _ Jc).
    destruct (IH c) as (l1 & E1 & E2 & I1 & N1); [apply (v_joined _ _ V) in Jc; tauto|lia|lia|].
    rewrite E1, E2. destruct (IHc (a ++ l1) Nd') as (l2 & E3 & E4 & I2 & N2); [intros d Hd; apply Hc; now right|].
    exists (l1 ++ l2). rewrite E3, app_assoc. split; [reflexivity|]. split; [|split].
    - intros b. rewrite E4, flat_map_app, app_assoc. reflexivity.
    - intros x. rewrite in_app_iff, I1, I2. split.
      + intros [U|(d & Hd & U)]; [exists c|exists d]; cbn; auto.
      + intros (d & [<-|Hd] & U); [auto|right; eauto].
    - apply NoDup_app_remove_l with (l := []) || idtac.
      clear -I1 I2 N1 N2 Nc Hc V. revert I1. revert N1.
      assert (Dj : forall x, In x l1 -> (forall y, In y l1 -> under tr c y) -> ~ In x l2).
      { intros x Hx Ux H2. apply I2 in H2 as (d & Hd & U). specialize (Ux _ Hx).
        assert (Same : forall a b x, In (OJoined m a) tr -> In (OJoined m b) tr -> under tr a x -> under tr b x -> a = b).
        { clear -V. intros a b x Ja Jb Ua. induction Ua as [|p x J Ua IH]; intros Ub.
          - apply under_split in Ub as [E|(q & J2 & U2)]; [congruence|]. rewrite (joined_one _ _ _ J2 Ja) in U2.
            apply joined_blk in Jb. apply under_blk in U2 as [->|U2]; lia.
          - apply under_split in Ub as [->|(q & J2 & U2)].
            + rewrite (joined_one _ _ _ J Jb) in *. apply joined_blk in Ja. apply under_blk in Ua as [->|Ua]; lia.
            + rewrite (joined_one _ _ _ J2 J) in U2. auto. }
        assert (c = d) by (eapply Same; [apply Hc; now left|apply Hc; now right|exact Ux|exact U]). subst. contradiction. }
      intros N1 I1. assert (Al : forall y, In y l1 -> under tr c y) by (intros y; apply I1).
      clear I1. induction N1 as [|x l Nx N1 IH]; [exact N2|]. cbn. constructor.
      + rewrite in_app_iff. intros [Hi|Hi]; [contradiction|]. eapply Dj; [now left|exact Al|exact Hi].
      + apply IH; [|intros y Hy; apply Al; now right]. intros y Hy Hu. apply Dj; [now right|exact Al]. }
  destruct (F (subs_of tr m) [] (v_nodup _ _ V m)) as (l & E1 & E2 & I & N); [intros c; apply in_subs_of|].
  rewrite E1, E2. exists (m :: l). split; [reflexivity|]. split; [reflexivity|]. split.
  - intros x. cbn [In]. rewrite I. split.
    + intros [<-|(c & Hc & U)]; [constructor|]. apply in_subs_of in Hc. eapply under_trans; [|exact U]. eapply under_sub; [exact Hc|constructor].
    + intros U. clear -U. induction U as [|p x J U IH]; [now left|]. right. destruct IH as [<-|(c & Hc & Uc)].
      * exists x. rewrite in_subs_of. split; [exact J|constructor].
      * exists c. split; [exact Hc|]. eapply under_sub; eauto.
  - constructor; [|exact N]. rewrite I. intros (c & Hc & U). apply in_subs_of in Hc. apply joined_blk in Hc. apply under_blk in U as [->|U]; lia.
Qed.
Lemma collect_tree m : m < nm s -> collect f (S (nb s)) s m = Some (flat_map f (tree s m)) /\
  (forall x, In x (tree s m) <-> under tr m x) /\ NoDup (tree s m).
Proof.
  intros H. destruct (collect_spec (S (nb s)) m H) as (l & E & E2 & I & N); [lia|lia|]. unfold tree. rewrite E. auto.
Qed.
End Coll.
End Walk.

(** ** Every step *)
Lemma in_app_one (P : out) tr o : In P (tr ++ [o]) <-> In P tr \/ P = o.
Proof. rewrite in_app_iff. cbn. split; intros [H|H]; auto; destruct H as [H|[]]; auto. Qed.
Lemma no_in_nil {A} (l : list A) : (forall x, ~ In x l) -> l = [].
Proof. destruct l as [|a l]; [reflexivity|]. intros H. exfalso. apply (H a). now left. Qed.
Lemma nodup_snoc {A} (l : list A) x : NoDup l -> ~ In x l -> NoDup (l ++ [x]).
Proof. intros N H. apply NoDup_rev in N. rewrite <- (rev_involutive (l ++ [x])). apply NoDup_rev. rewrite rev_app_distr. cbn. constructor; [now rewrite <- in_rev|exact N]. Qed.

Lemma inv_new_block s tr p : inv s tr -> match p with Some p => p < nb s | None => True end -> inv (new_block s p) tr.
Proof.
  intros V H. constructor; cbn [new_block nb bl nm mp nr rg]; try apply V.
  - intros b q. destruct (Nat.eq_dec b (nb s)) as [->|N].
    + rewrite upd_eq. cbn. intros ->. lia.
    + rewrite upd_neq by exact N. intros E. apply (v_bpar _ _ V) in E. lia.
  - intros m Hm. apply (v_blk _ _ V) in Hm. lia.
  - intros b m. destruct (Nat.eq_dec b (nb s)) as [->|N].
    + rewrite upd_eq. cbn. split; [easy|]. intros (Hm & E). apply (v_blk _ _ V) in Hm. lia.
    + rewrite upd_neq by exact N. apply V.
  - intros q c J. apply (v_joined _ _ V) in J as (H1 & H2 & H3). repeat split; auto.
    eapply block_below_mono; [|exact H3]. intros b q0 E. cbn [new_block bl].
    rewrite upd_neq; [exact E|]. apply (v_bpar _ _ V) in E. lia.
Qed.
Lemma skel_set_bl s b x : b_par (bl s b) = b_par x -> b_maps (bl s b) = b_maps x -> skel s (set_bl s b x).
Proof.
  intros H1 H2. split; [reflexivity|]. split; [reflexivity|]. split; [reflexivity|]. split; [reflexivity|]. split; [intros; apply skel_map_refl|].
  intros c. cbn. destruct (Nat.eq_dec c b) as [->|N]; [rewrite upd_eq; auto|rewrite upd_neq by exact N; auto].
Qed.
Lemma quiet_nil : quiet []. Proof. constructor. Qed.
Lemma quiet_err : quiet [OErr]. Proof. repeat constructor. Qed.

Lemma inv_create_map s tr b : inv s tr -> b < nb s -> inv (fst (create_map s b)) (tr ++ snd (create_map s b)).
Proof.
  intros V Hb. unfold create_map. cbn zeta. destruct (b_lock (bl s b)); [apply (inv_skel s); [exact V|apply skel_refl|apply quiet_err]|].
  cbn [fst snd]. rewrite app_nil_r.
  generalize (match b_maps (bl s b) with [] => Some (nm s) | _ => b_def (bl s b) end). intros d.
  assert (B : forall b0, b_par (upd (bl s) b (Block (b_par (bl s b)) (b_kids (bl s b)) false (b_maps (bl s b) ++ [nm s]) d) b0) = b_par (bl s b0)).
  { intros b0. destruct (Nat.eq_dec b0 b) as [->|N]; [now rewrite upd_eq|now rewrite upd_neq]. }
  constructor; cbn [nb bl nm mp nr rg]; try apply V.
  - intros b0 p. rewrite B. apply V.
  - intros m Hm. destruct (Nat.eq_dec m (nm s)) as [->|N]; [now rewrite upd_eq|]. rewrite upd_neq by exact N. apply (v_blk _ _ V). lia.
  - intros b0 m. destruct (Nat.eq_dec b0 b) as [->|N].
    + rewrite upd_eq. cbn [b_maps]. rewrite in_app_iff, (v_bmaps _ _ V). cbn. destruct (Nat.eq_dec m (nm s)) as [->|Nm].
      * rewrite upd_eq. cbn. split; [intros _; split; [lia|reflexivity]|auto].
      * rewrite upd_neq by exact Nm. split; [intros [H|[H|[]]]; [split; [lia|tauto]|congruence]|]. intros (H & E). left. split; [lia|exact E].
    + rewrite upd_neq by exact N. rewrite (v_bmaps _ _ V). destruct (Nat.eq_dec m (nm s)) as [->|Nm].
      * rewrite upd_eq. cbn. split; [lia|intros (_ & E); congruence].
      * rewrite upd_neq by exact Nm. split; intros (H & E); split; auto; lia.
  - intros c p. destruct (Nat.eq_dec c (nm s)) as [->|N]; [|rewrite upd_neq by exact N; apply V].
    rewrite upd_eq. cbn. split; [discriminate|]. intros J. apply (v_joined _ _ V) in J. lia.
  - intros p. destruct (Nat.eq_dec p (nm s)) as [->|N]; [|rewrite upd_neq by exact N; apply V].
    rewrite upd_eq. cbn. symmetry. apply no_in_nil. intros c. rewrite in_subs_of. intros J. apply (v_joined _ _ V) in J. lia.
  - intros p c J. apply (v_joined _ _ V) in J as (H1 & H2 & H3). rewrite !upd_neq by lia. repeat split; [lia|lia|].
    eapply block_below_mono; [|exact H3]. intros b0 q. cbn [bl]. now rewrite B.
  - intros m. destruct (Nat.eq_dec m (nm s)) as [->|N]; [|rewrite upd_neq by exact N; apply V].
    rewrite upd_eq. cbn. symmetry. apply no_in_nil. intros c. rewrite in_regs_of. intros J. apply (v_added _ _ V) in J. lia.
  - intros m r J. apply (v_added _ _ V) in J as (H1 & H2 & H3). rewrite upd_neq by lia. repeat split; auto; lia.
Qed.
Lemma inv_new_reg s tr b : inv s tr -> inv (MS (nb s) (bl s) (nm s) (mp s) (S (nr s)) (upd (rg s) (nr s) (AReg b []))) tr.
Proof.
  intros V. constructor; cbn [nb bl nm mp nr rg]; try apply V.
  - intros p c J. apply (v_joined _ _ V) in J as (H1 & H2 & H3). repeat split; auto. eapply block_below_mono; [|exact H3]. auto.
  - intros r. destruct (Nat.eq_dec r (nr s)) as [->|N]; [|rewrite upd_neq by exact N; apply V].
    rewrite upd_eq. cbn. symmetry. apply no_in_nil. intros c. rewrite in_maps_of. intros J. apply (v_added _ _ V) in J. lia.
  - intros m r J. apply (v_added _ _ V) in J as (H1 & H2 & H3). rewrite upd_neq by lia. repeat split; auto.
Qed.
Lemma added_inv s tr m r rights u f : inv s tr -> m < nm s -> r < nr s ->
  inv (fst (add_reg s m r rights u f)) (tr ++ snd (add_reg s m r rights u f)).
Proof.
  intros V Hm Hr. unfold add_reg. cbn zeta. destruct (memb r (map fst (p_regs (mp s m)))) eqn:E1; [apply (inv_skel s); [exact V|apply skel_refl|apply quiet_err]|].
  destruct (Nat.eqb_spec (r_blk (rg s r)) (p_blk (mp s m))) as [E2|E2]; cbn [negb]; [|apply (inv_skel s); [exact V|apply skel_refl|apply quiet_err]].
  apply memb_out in E1. rewrite (v_regs _ _ V), in_regs_of in E1.
  assert (E3 : memb m (r_maps (rg s r)) = false) by (apply memb_out; rewrite (v_rmaps _ _ V), in_maps_of; exact E1).
  rewrite E3. cbn [fst snd].
  assert (J : forall p c, In (OJoined p c) (tr ++ [OAdded m r]) <-> In (OJoined p c) tr).
  { intros p c. rewrite in_app_one. split; [intros [H|H]; [exact H|discriminate]|auto]. }
  assert (B : forall m0, let x := upd (mp s) m (AMap (p_blk (mp s m)) (p_par (mp s m)) (p_sub (mp s m)) (p_regs (mp s m) ++ [(r, Info rights u f false)])
    (p_seq (mp s m)) (p_adp (mp s m)) (p_auto (mp s m)) (p_check (mp s m))) m0 in
    p_blk x = p_blk (mp s m0) /\ p_par x = p_par (mp s m0) /\ p_sub x = p_sub (mp s m0)).
  { intros m0. destruct (Nat.eq_dec m0 m) as [->|N]; [rewrite upd_eq; auto|rewrite upd_neq by exact N; auto]. }
  cbn zeta in B.
  assert (R : forall r0, r_blk (upd (rg s) r (AReg (r_blk (rg s r)) (r_maps (rg s r) ++ [m])) r0) = r_blk (rg s r0)).
  { intros r0. destruct (Nat.eq_dec r0 r) as [->|N]; [now rewrite upd_eq|now rewrite upd_neq]. }
  constructor; cbn [set_mp set_rg nb bl nm mp nr rg].
  - apply V.
  - intros m0 H. rewrite (proj1 (B m0)). now apply (v_blk _ _ V).
  - intros b m0. rewrite (proj1 (B m0)). apply V.
  - intros c p. rewrite J. destruct (B c) as (_ & -> & _). apply V.
  - intros p. destruct (B p) as (_ & _ & ->). rewrite subs_app. cbn. rewrite app_nil_r. apply V.
  - intros p c. rewrite J, (proj1 (B p)), (proj1 (B c)). intros H. apply (v_joined _ _ V) in H as (H1 & H2 & H3). repeat split; auto.
    eapply block_below_mono; [|exact H3]. auto.
  - intros p. rewrite subs_app. cbn. rewrite app_nil_r. apply V.
  - intros r0. rewrite maps_app. cbn. destruct (Nat.eq_dec r0 r) as [->|N].
    + rewrite upd_eq, Nat.eqb_refl. cbn. now rewrite (v_rmaps _ _ V).
    + rewrite upd_neq by exact N. destruct (Nat.eqb_spec r r0); [congruence|]. cbn. rewrite app_nil_r. apply V.
  - intros m0. rewrite regs_app. cbn. destruct (Nat.eq_dec m0 m) as [->|N].
    + rewrite upd_eq, Nat.eqb_refl. cbn. rewrite map_app. cbn. now rewrite (v_regs _ _ V).
    + rewrite upd_neq by exact N. destruct (Nat.eqb_spec m m0); [congruence|]. cbn. rewrite app_nil_r. apply V.
  - intros m0 r0. rewrite in_app_one, R, (proj1 (B m0)). intros [H|[= -> ->]]; [now apply V|auto].
  - intros r0. rewrite maps_app. cbn. destruct (Nat.eqb_spec r r0) as [<-|N]; cbn; [|rewrite app_nil_r; apply V].
    apply nodup_snoc; [apply V|]. now rewrite in_maps_of.
  - intros m0. rewrite regs_app. cbn. destruct (Nat.eqb_spec m m0) as [<-|N]; cbn; [|rewrite app_nil_r; apply V].
    apply nodup_snoc; [apply V|]. now rewrite in_regs_of.
Qed.
(** the state after the two maps are linked *)
Definition link (s : ms) (m c : nat) : ms :=
  let y := mp s c in
  let s := set_mp s c (AMap (p_blk y) (Some m) (p_sub y) (p_regs y) (p_seq y) (p_adp y) (p_auto y) (p_check y)) in
  let x := mp s m in
  set_mp s m (AMap (p_blk x) (p_par x) (p_sub x ++ [c]) (p_regs x) (p_seq x) (p_adp x) (p_auto x) (p_check x)).
Lemma link_mp s m c k : m <> c -> mp (link s m c) k =
  let x := mp s k in
  AMap (p_blk x) (if Nat.eqb k c then Some m else p_par x) (if Nat.eqb k m then p_sub x ++ [c] else p_sub x) (p_regs x) (p_seq x) (p_adp x) (p_auto x) (p_check x).
Proof.
  intros N. unfold link. cbn zeta. cbn [set_mp mp]. destruct (Nat.eqb_spec k m) as [->|N1].
  - rewrite upd_eq, upd_neq by exact N. destruct (Nat.eqb_spec m c); [contradiction|]. reflexivity.
  - rewrite upd_neq by exact N1. destruct (Nat.eqb_spec k c) as [->|N2]; [now rewrite upd_eq|]. rewrite upd_neq by exact N2. now destruct (mp s k).
Qed.
Lemma link_inv s tr m c : inv s tr -> m < nm s -> c < nm s -> p_par (mp s c) = None -> block_below s (p_blk (mp s m)) (p_blk (mp s c)) ->
  inv (link s m c) (tr ++ [OJoined m c]).
Proof.
  intros V Hm Hc P B. assert (N : m <> c) by (intros ->; apply block_below_lt in B; [lia|apply V]).
  assert (D : forall x r, In (OAdded x r) (tr ++ [OJoined m c]) <-> In (OAdded x r) tr).
  { intros x r. rewrite in_app_one. split; [intros [H|H]; [exact H|discriminate]|auto]. }
  assert (Nj : forall p, ~ In (OJoined p c) tr) by (intros p H; apply (v_par _ _ V) in H; congruence).
  constructor; cbn [link set_mp nb bl nm nr rg].
  - apply V.
  - intros k H. rewrite link_mp by exact N. cbn. now apply (v_blk _ _ V).
  - intros b k. rewrite link_mp by exact N. cbn. apply V.
  - intros k p. rewrite in_app_one, link_mp by exact N. cbn. destruct (Nat.eqb_spec k c) as [->|Nk].
    + split; [intros [= ->]; auto|]. intros [H|[= ->]]; [now apply Nj in H|reflexivity].
    + rewrite (v_par _ _ V). split; [auto|]. intros [H|[= -> ->]]; [exact H|contradiction].
  - intros p. rewrite link_mp by exact N. cbn. rewrite subs_app. cbn. rewrite (Nat.eqb_sym m p).
    destruct (Nat.eqb p m); rewrite ?app_nil_r, (v_sub _ _ V); reflexivity.
  - intros p k. rewrite in_app_one, !link_mp by exact N. cbn. intros H. assert (X : p < nm s /\ k < nm s /\ block_below s (p_blk (mp s p)) (p_blk (mp s k))).
    { destruct H as [H|[= -> ->]]; [now apply V|auto]. }
    destruct X as (X1 & X2 & X3). repeat split; auto. eapply block_below_mono; [|exact X3]. auto.
  - intros p. rewrite subs_app. cbn. destruct (Nat.eqb_spec m p) as [<-|Np]; cbn; [|rewrite app_nil_r; apply V].
    apply nodup_snoc; [apply V|]. rewrite in_subs_of. apply Nj.
  - intros r. rewrite maps_app. cbn. rewrite app_nil_r. apply V.
  - intros k. rewrite link_mp by exact N. cbn. rewrite regs_app. cbn. rewrite app_nil_r. apply V.
  - intros k r. rewrite D, link_mp by exact N. cbn. apply V.
  - intros r. rewrite maps_app. cbn. rewrite app_nil_r. apply V.
  - intros k. rewrite regs_app. cbn. rewrite app_nil_r. apply V.
Qed.
(** what add_submap does *)
Lemma add_submap_eq s tr m c : inv s tr -> m < nm s -> c < nm s ->
  (exists p, p_par (mp s c) = Some p /\ add_submap s m c = (s, [OErr])) \/
  (p_par (mp s c) = None /\ ~ block_below s (p_blk (mp s m)) (p_blk (mp s c)) /\ add_submap s m c = (s, [OAttr])) \/
  (p_par (mp s c) = None /\ block_below s (p_blk (mp s m)) (p_blk (mp s c)) /\
   add_submap s m c = (let t := link s m c in if b_lock (bl s (p_blk (mp s m))) then init_map t (root t m) else t, [OJoined m c])).
Proof.
  intros V Hm Hc. unfold add_submap. destruct (p_par (mp s c)) as [p|] eqn:P; [left; eauto|right].
  destruct (reaches_spec s tr V (p_blk (mp s m)) (S (nb s)) (Some (p_blk (mp s c)))) as (o & E & H); [assert (X := v_blk _ _ V c Hc); lia|].
  rewrite E. destruct o.
  - right. destruct (proj1 H eq_refl) as (x & [= <-] & B). split; [reflexivity|]. split; [exact B|].
    assert (N : m <> c) by (intros ->; apply block_below_lt in B; [lia|apply V]).
    cbn zeta. cbn [set_mp mp]. rewrite !(upd_neq (mp s) c m) by exact N.
    assert (Nj : memb c (p_sub (mp s m)) = false) by (apply memb_out; rewrite (v_sub _ _ V), in_subs_of, <- (v_par _ _ V), P; discriminate).
    rewrite Nj. unfold link. cbn zeta. cbn [set_mp mp bl]. rewrite !(upd_neq (mp s) c m) by exact N. reflexivity.
  - left. split; [reflexivity|]. split; [|reflexivity]. intros B. assert (X : false = true) by (apply H; eauto). discriminate.
Qed.
(** lock_model ends *)
Lemma lock_down_ends s : forall k t b, b_kids (bl s b) = b_kids (bl s b) ->
  (forall x y, In y (b_kids (bl t x)) -> x < y < nb s) -> nb s <= k + b -> 0 < k -> exists u, lock_down k t b = Some u.
Proof.
  induction k as [|k IH]; intros t b _ K H P; [lia|]. cbn [lock_down]. destruct (b_lock (bl t b)); [eauto|].
  assert (F : forall l t0, (forall y, In y l -> b < y < nb s) -> (forall x y, In y (b_kids (bl t0 x)) -> x < y < nb s) ->
    exists u, fold_left (fun o c => match o with Some s => lock_down k s c | None => None end) l (Some t0) = Some u).
  { induction l as [|c l IHl]; intros t0 Hl K0; cbn [fold_left]; [eauto|].
    assert (Hc := Hl c (or_introl eq_refl)). destruct (IH t0 c eq_refl K0) as (u & E); [lia|lia|]. rewrite E.
    apply IHl; [intros y Hy; apply Hl; now right|]. apply lock_down_skel in E as (_ & _ & E). intros x y. rewrite E. apply K0. }
  apply F; [apply K|]. intros x y. cbn. destruct (Nat.eq_dec x b) as [->|N]; [rewrite upd_eq; apply K|rewrite upd_neq by exact N; apply K].
Qed.
Definition kids (s : ms) : Prop := forall x y, In y (b_kids (bl s x)) -> b_par (bl s y) = Some x.
Definition inv2 (s : ms) (tr : list out) : Prop := inv s tr /\ kids s.
Lemma fold_mp_bl {A} (f : ms -> A -> ms) : (forall s a, bl (f s a) = bl s) -> forall l s, bl (fold_left f l s) = bl s.
Proof. intros H. induction l as [|a l IH]; intros s; [reflexivity|]. cbn [fold_left]. now rewrite IH. Qed.
Lemma init_map_bl s m : bl (init_map s m) = bl s.
Proof. unfold init_map. apply fold_mp_bl. reflexivity. Qed.
Lemma lock_some s tr b : inv2 s tr -> b < nb s -> exists t, lock_down (S (nb s)) s b = Some t.
Proof.
  intros (V & K) Hb. apply (lock_down_ends s); [reflexivity| |lia|lia]. intros x y H. apply K in H. now apply (v_bpar _ _ V) in H.
Qed.
Lemma kids_skel s t : skel s t -> (forall b, b_kids (bl t b) = b_kids (bl s b)) -> kids s -> kids t.
Proof. intros (_ & _ & _ & _ & _ & A) H K x y. rewrite H. intros I. rewrite <- (proj1 (A y)). now apply K. Qed.
Lemma step_inv s tr x : inv2 s tr -> inv2 (fst (step s x)) (tr ++ snd (step s x)) /\ ~ In OLoop (snd (step s x)).
Proof.
  intros (V & K).
  assert (Skip : inv2 s (tr ++ []) /\ ~ In OLoop []) by (rewrite app_nil_r; split; [split; assumption|easy]).
  assert (Err : inv2 s (tr ++ [OErr]) /\ ~ In OLoop [OErr]).
  { split; [split; [|exact K]|intros [H|[]]; discriminate]. apply (inv_skel s); [exact V|apply skel_refl|apply quiet_err]. }
  unfold step. destruct (exist s x) eqn:E; cbn [negb]; [|exact Skip].
  destruct x as [p|b|b|m r rights u f|m c|m q a|m on|m on|b m|b]; cbn [exist] in E; rewrite ?andb_true_iff, ?Nat.ltb_lt in E.
  - assert (V' : inv (new_block s p) tr).
    { apply inv_new_block; [exact V|]. destruct p; [now apply Nat.ltb_lt|trivial]. }
    assert (K' : kids (new_block s p)).
    { intros x y. cbn [new_block bl]. destruct (Nat.eq_dec x (nb s)) as [->|N]; [rewrite upd_eq; easy|].
      rewrite upd_neq by exact N. intros H. apply K in H. rewrite upd_neq; [exact H|]. apply (v_bpar _ _ V) in H. lia. }
    unfold add_block. cbn zeta. destruct p as [p|].
    2:{ cbn [fst snd]. rewrite app_nil_r. split; [split; assumption|easy]. }
    destruct (b_lock (bl (new_block s (Some p)) p)); cbn [fst snd].
    + split; [split; [|exact K']|intros [H|[]]; discriminate]. apply (inv_skel (new_block s (Some p))); [exact V'|apply skel_refl|apply quiet_err].
    + split; [|easy]. split; [apply (inv_skel (new_block s (Some p))); [exact V'|apply skel_set_bl; reflexivity|apply quiet_nil]|].
      apply Nat.ltb_lt in E.
      intros x y. cbn [set_bl bl]. intros H. assert (G : b_par (bl (new_block s (Some p)) y) = Some x).
      { destruct (Nat.eq_dec x p) as [->|N].
        - rewrite upd_eq in H. cbn [b_kids] in H. rewrite in_app_iff in H. destruct H as [H|[<-|[]]]; [now apply K'|].
          cbn [new_block bl]. rewrite upd_eq. reflexivity.
        - rewrite upd_neq in H by exact N. now apply K'. }
      destruct (Nat.eq_dec y p) as [->|N]; [rewrite upd_eq; exact G|now rewrite upd_neq].
  - split; [split; [now apply inv_create_map|]|].
    + unfold create_map. cbn zeta. destruct (b_lock (bl s b)); [exact K|]. cbn [fst]. intros x y. cbn [bl].
      assert (G : forall z, b_par (upd (bl s) b (Block (b_par (bl s b)) (b_kids (bl s b)) false (b_maps (bl s b) ++ [nm s])
        (match b_maps (bl s b) with [] => Some (nm s) | _ => b_def (bl s b) end)) z) = b_par (bl s z)).
      { intros z. destruct (Nat.eq_dec z b) as [->|N]; [now rewrite upd_eq|now rewrite upd_neq]. }
      rewrite G. destruct (Nat.eq_dec x b) as [->|N]; [rewrite upd_eq; apply K|rewrite upd_neq by exact N; apply K].
    + unfold create_map. cbn zeta. destruct (b_lock (bl s b)); cbn [snd]; [intros [H|[]]; discriminate|easy].
  - cbn [fst snd]. rewrite app_nil_r. split; [split; [now apply inv_new_reg|exact K]|easy].
  - split; [split; [now apply added_inv|]|].
    + unfold add_reg. cbn zeta. destruct (memb _ _); [exact K|]. destruct (negb _); exact K.
    + unfold add_reg. cbn zeta. destruct (memb _ _); [intros [H|[]]; discriminate|]. destruct (negb _); cbn [snd]; intros [H|[]]; discriminate.
  - destruct E as (Hm & Hc). destruct (add_submap_eq s tr m c V Hm Hc) as [(p & P & ->)|[(P & B & ->)|(P & B & ->)]].
    + exact Err.
    + cbn [fst snd]. split; [split; [|exact K]|intros [H|[]]; discriminate]. apply (inv_skel s); [exact V|apply skel_refl|repeat constructor].
    + cbn [fst snd]. split; [|intros [H|[]]; discriminate]. cbn zeta.
      assert (L := link_inv s tr m c V Hm Hc P B). split.
      * destruct (b_lock _); [|exact L]. rewrite <- (app_nil_r (tr ++ _)). apply (inv_skel (link s m c)); [exact L|apply init_map_skel|apply quiet_nil].
      * destruct (b_lock _); [|exact K]. intros x y. rewrite init_map_bl. apply K.
  - unfold set_sequencer. destruct q; [|exact Err]. cbn [fst snd]. split; [split; [|exact K]|easy].
    apply (inv_skel s); [exact V|apply skel_set_mp; repeat split|apply quiet_nil].
  - cbn [fst snd]. split; [split; [|exact K]|easy]. apply (inv_skel s); [exact V|apply skel_set_mp; repeat split|apply quiet_nil].
  - cbn [fst snd]. split; [split|easy]; [apply (inv_skel s); [exact V|apply set_check_skel|apply quiet_nil]|].
    intros x y. unfold set_check. rewrite fold_mp_bl by reflexivity. apply K.
  - cbn [fst snd]. split; [split|easy]; [apply (inv_skel s); [exact V|now apply skel_set_bl|apply quiet_nil]|].
    apply (kids_skel s); [now apply skel_set_bl| |exact K]. intros z. cbn. destruct (Nat.eq_dec z b) as [->|N]; [now rewrite upd_eq|now rewrite upd_neq].
  - unfold lock_model. destruct (b_lock (bl s b)); [exact Skip|]. destruct (lock_some s tr b (conj V K) E) as (t & Et). rewrite Et.
    cbn [fst snd]. split; [|easy]. apply lock_down_skel in Et as (Sk & _ & Kd).
    destruct (b_par (bl t b)).
    + split; [apply (inv_skel s); [exact V|exact Sk|apply quiet_nil]|now apply (kids_skel s)].
    + split; [apply (inv_skel s); [exact V|eapply skel_trans; [exact Sk|apply fold_init_skel]|apply quiet_nil]|].
      intros x y. rewrite fold_mp_bl by apply init_map_bl. now apply (kids_skel s).
Qed.
Lemma run_snoc ls x : run (ls ++ [x]) = (fst (step (fst (run ls)) x), snd (run ls) ++ snd (step (fst (run ls)) x)).
Proof.
  unfold run. rewrite run_machine_app. destruct (run_machine step init ls) as (s, tr). cbn [fst snd run_machine].
  destruct (step s x) as (t, o). cbn. now rewrite app_nil_r.
Qed.
Lemma run_inv ls : inv2 (fst (run ls)) (snd (run ls)) /\ ~ In OLoop (snd (run ls)).
Proof.
  induction ls as [|x ls (IH & L)] using rev_ind; [split; [split; [apply inv_init|intros x y []]|easy]|].
  rewrite run_snoc. cbn [fst snd]. apply (step_inv _ _ x) in IH as (A & B). split; [exact A|]. rewrite in_app_iff. tauto.
Qed.

(** ** What a step does to a map *)
Lemma fold_set (g : amap -> amap) : (forall x, g (g x) = g x) -> forall l s k,
  mp (fold_left (fun s c => set_mp s c (g (mp s c))) l s) k = if memb k l then g (mp s k) else mp s k.
Proof.
  intros H. induction l as [|c l IH]; intros s k; [reflexivity|]. cbn [fold_left]. rewrite IH. cbn [set_mp mp memb existsb].
  destruct (Nat.eqb_spec k c) as [->|N].
  - rewrite upd_eq. cbn [orb]. destruct (memb c l); [apply H|reflexivity].
  - rewrite upd_neq by exact N. reflexivity.
Qed.
Lemma mark_mark x : mark (mark x) = mark x.
Proof. unfold mark. cbn. rewrite map_map. reflexivity. Qed.
Lemma init_map_mp s tr m k : inv s tr -> m < nm s ->
  (under tr m k /\ mp (init_map s m) k = mark (mp s k)) \/ (~ under tr m k /\ mp (init_map s m) k = mp s k).
Proof.
  intros V Hm. unfold init_map. rewrite (fold_set mark mark_mark). destruct (collect_tree s tr V (fun x => [x]) m Hm) as (_ & I & _).
  destruct (memb k (tree s m)) eqn:E; [apply memb_in in E|apply memb_out in E]; rewrite I in E; auto.
Qed.
Lemma set_check_mp s tr m on k : inv s tr -> m < nm s ->
  (under tr m k /\ mp (set_check s m on) k = check_on on (mp s k)) \/ (~ under tr m k /\ mp (set_check s m on) k = mp s k).
Proof.
  intros V Hm. unfold set_check. rewrite (fold_set (check_on on)) by reflexivity. destruct (collect_tree s tr V (fun x => [x]) m Hm) as (_ & I & _).
  destruct (memb k (tree s m)) eqn:E; [apply memb_in in E|apply memb_out in E]; rewrite I in E; auto.
Qed.
Lemma fold_init_mp tr k : forall l s, inv s tr -> (forall m, In m l -> m < nm s) ->
  ((exists m, In m l /\ under tr m k) /\ mp (fold_left init_map l s) k = mark (mp s k)) \/
  ((~ exists m, In m l /\ under tr m k) /\ mp (fold_left init_map l s) k = mp s k).
Proof.
  induction l as [|m l IH]; intros s V H; cbn [fold_left]; [right; split; [intros (m & [] & _)|reflexivity]|].
  assert (Hm := H m (or_introl eq_refl)).
  assert (V' : inv (init_map s m) tr) by (rewrite <- (app_nil_r tr); apply (inv_skel s); [exact V|apply init_map_skel|apply quiet_nil]).
  assert (H' : forall x, In x l -> x < nm (init_map s m)) by (intros x Hx; rewrite <- (proj1 (proj2 (init_map_skel s m))); apply H; now right).
  destruct (IH _ V' H') as [((x & Hx & U) & E)|(N & E)]; rewrite E; destruct (init_map_mp s tr m k V Hm) as [(U1 & E1)|(U1 & E1)]; rewrite E1, ?mark_mark.
  - left. split; [exists x; cbn; auto|reflexivity].
  - left. split; [exists x; cbn; auto|reflexivity].
  - left. split; [exists m; cbn; auto|reflexivity].
  - right. split; [|reflexivity]. intros (y & [->|Hy] & Uy); [contradiction|]. apply N. eauto.
Qed.

(** the change of the entry of a register, and of the settings, in one statement *)
Definition marked (o : option info) : option info :=
  option_map (fun i => Info (i_rights i) (i_unmapped i) (i_front i) true) o.
Lemma find_mark (l : list (nat * info)) r :
  option_map snd (find (fun x => Nat.eqb (fst x) r) (map (fun y => (fst y, Info (i_rights (snd y)) (i_unmapped (snd y)) (i_front (snd y)) true)) l)) =
  marked (option_map snd (find (fun x => Nat.eqb (fst x) r) l)).
Proof. induction l as [|(a, i) l IH]; [reflexivity|]. cbn. destruct (Nat.eqb a r); [reflexivity|exact IH]. Qed.
Lemma info_mark s t m r : mp t m = mark (mp s m) -> info_of t m r = marked (info_of s m r).
Proof. intros E. unfold info_of. rewrite E. apply find_mark. Qed.
Lemma info_same s t m r : p_regs (mp t m) = p_regs (mp s m) -> info_of t m r = info_of s m r.
Proof. intros E. unfold info_of. now rewrite E. Qed.
Lemma info_in s tr m r : inv s tr -> (info_of s m r <> None <-> In (OAdded m r) tr).
Proof.
  intros V. rewrite <- in_regs_of, <- (v_regs _ _ V). unfold info_of. induction (p_regs (mp s m)) as [|(a, i) l IH]; cbn; [split; [congruence|easy]|].
  destruct (Nat.eqb_spec a r) as [->|N]; [split; [auto|discriminate]|]. rewrite IH. split; [auto|]. intros [H|H]; [congruence|exact H].
Qed.
Definition accepts_add (s : ms) (x : label) (l r rights : nat) (u f : bool) : Prop :=
  x = LAdd l r rights u f /\ snd (step s x) = [OAdded l r].
Lemma find_snoc (l : list (nat * info)) r y : find (fun x => Nat.eqb (fst x) r) (l ++ [y]) =
  match find (fun x => Nat.eqb (fst x) r) l with Some z => Some z | None => if Nat.eqb (fst y) r then Some y else None end.
Proof. induction l as [|a l IH]; cbn; [reflexivity|]. destruct (Nat.eqb (fst a) r); [reflexivity|exact IH]. Qed.

Lemma lock_model_eq s tr b : inv2 s tr -> b < nb s -> b_lock (bl s b) = false ->
  exists t, (forall m, mp t m = mp s m) /\ inv t tr /\ nm t = nm s /\ (forall c, b_maps (bl t c) = b_maps (bl s c)) /\
    step s (LLock b) = (match b_par (bl s b) with None => fold_left init_map (b_maps (bl s b)) t | Some _ => t end, []).
Proof.
  intros (V & K) Hb L. destruct (lock_some s tr b (conj V K) Hb) as (t & Et).
  assert (X := Et). apply lock_down_skel in X as (Sk & Mp & _). exists t. split; [exact Mp|].
  split; [rewrite <- (app_nil_r tr); apply (inv_skel s); [exact V|exact Sk|apply quiet_nil]|].
  destruct Sk as (_ & S2 & _ & _ & _ & S6). split; [now rewrite S2|]. split; [intros c; now rewrite (proj2 (S6 c))|].
  unfold step. cbn [exist]. apply Nat.ltb_lt in Hb. rewrite Hb. cbn [negb]. unfold lock_model. rewrite L, Et.
  rewrite <- (proj1 (S6 b)), <- (proj2 (S6 b)). reflexivity.
Qed.
Lemma info_step s tr x l r : inv2 s tr ->
  (exists rights u f, accepts_add s x l r rights u f /\ info_of (fst (step s x)) l r = Some (Info rights u f false)) \/
  ((forall rights u f, ~ accepts_add s x l r rights u f) /\
   ((initialises s tr x l /\ info_of (fst (step s x)) l r = marked (info_of s l r)) \/
    (~ initialises s tr x l /\ info_of (fst (step s x)) l r = info_of s l r))).
Proof.
  intros (V & K).
  destruct x as [p|b|b|m r' rights u f|m c|m q a|m on|m on|b m|b]; try (right; split; [intros ? ? ? (E & _); discriminate|]).
  - right. split; [intros []|]. unfold step. destruct (exist s _); cbn [negb]; [|reflexivity]. apply info_same. unfold add_block. cbn zeta.
    destruct p; [destruct (b_lock _)|]; reflexivity.
  - right. split; [intros []|]. unfold step. destruct (exist s _) eqn:E; cbn [negb]; [|reflexivity]. unfold create_map. cbn zeta.
    destruct (b_lock _); [reflexivity|]. cbn [fst]. destruct (Nat.eq_dec l (nm s)) as [->|N].
    + unfold info_of. cbn [mp]. rewrite upd_eq. cbn. destruct (info_of s (nm s) r) eqn:I; [|unfold info_of in I; now rewrite I].
      assert (X : In (OAdded (nm s) r) tr) by (apply (info_in s); [exact V|congruence]). apply (v_added _ _ V) in X. lia.
    + apply info_same. cbn [mp]. now rewrite upd_neq.
  - right. split; [intros []|]. unfold step. destruct (exist s _); reflexivity.
  - unfold accepts_add, step. destruct (exist s (LAdd m r' rights u f)) eqn:E; cbn [negb].
    2:{ right. split; [intros ? ? ? (_ & H); discriminate|]. right. split; [intros []|reflexivity]. }
    unfold add_reg. cbn zeta. destruct (memb r' (map fst (p_regs (mp s m)))) eqn:E1.
    { right. split; [intros ? ? ? (_ & H); discriminate|]. right. split; [intros []|reflexivity]. }
    destruct (negb (Nat.eqb (r_blk (rg s r')) (p_blk (mp s m)))) eqn:E2.
    { right. split; [intros ? ? ? (_ & H); discriminate|]. right. split; [intros []|reflexivity]. }
    cbn [fst snd]. unfold info_of at 1 3 4. cbn [set_mp set_rg mp]. destruct (Nat.eq_dec l m) as [->|N].
    + rewrite upd_eq. cbn [p_regs]. rewrite find_snoc. cbn [fst]. destruct (Nat.eqb_spec r' r) as [->|Nr].
      * left. exists rights, u, f. split; [auto|]. destruct (find _ (p_regs (mp s m))) as [(a, i)|] eqn:F; [|reflexivity].
        apply find_some in F as (F & Ea). apply memb_out in E1. exfalso. apply E1. apply in_map_iff. exists (a, i). split; [|exact F]. now apply Nat.eqb_eq in Ea.
      * right. split; [intros ? ? ? ([= ->] & _); contradiction|]. right. split; [intros []|]. unfold info_of. now destruct (find _ _).
    + right. split; [intros ? ? ? ([= ->] & _); contradiction|]. right. split; [intros []|]. rewrite upd_neq by exact N. reflexivity.
  - cbn [initialises]. destruct (exist s (LSub m c)) eqn:E.
    2:{ right. unfold step. rewrite E. split; [intros (H & _); discriminate|reflexivity]. }
    unfold step. rewrite E. cbn [negb]. cbn [exist] in E. apply andb_true_iff in E as (Hm & Hc). apply Nat.ltb_lt in Hm, Hc.
    destruct (add_submap_eq s tr m c V Hm Hc) as [(p & P & ->)|[(P & B & ->)|(P & B & ->)]]; cbn [fst snd].
    + right. split; [intros (H & _); discriminate|reflexivity].
    + right. split; [intros (H & _); discriminate|reflexivity].
    + cbn zeta. assert (L := link_inv s tr m c V Hm Hc P B).
      assert (N : m <> c) by (intros ->; apply block_below_lt in B; [lia|apply V]).
      assert (Sm : info_of (link s m c) l r = info_of s l r) by (apply info_same; rewrite link_mp by exact N; reflexivity).
      destruct (b_lock (bl s (p_blk (mp s m)))) eqn:Lk; [|right; split; [intros (_ & H & _); discriminate|exact Sm]].
      destruct (ups_spec _ _ L m Hm) as (_ & _ & U & R).
      assert (Rt : root (link s m c) m < nm (link s m c)).
      { apply under_split in U as [->|(p & J & U)]; [exact Hm|]. revert J U. generalize (root (link s m c) m). intros t J U.
        destruct (under_split _ _ _ U) as [->|(q & J2 & U2)]; [apply (v_joined _ _ L) in J; tauto|].
        clear -L U J. assert (X : forall p, (exists c0, In (OJoined p c0) (tr ++ [OJoined m c])) -> under (tr ++ [OJoined m c]) t p -> t < nm (link s m c)).
        { intros p0 H U0. induction U0 as [|p1 c1 J1 U1 IH]; [destruct H as (c0 & H); apply (v_joined _ _ L) in H; tauto|]. apply IH. eauto. }
        eapply X; eauto. }
      assert (Nt : forall p, ~ In (OJoined p (root (link s m c) m)) (tr ++ [OJoined m c])) by (intros p H; apply (v_par _ _ L) in H; congruence).
      destruct (init_map_mp _ _ (root (link s m c) m) l L Rt) as [(Ul & El)|(Ul & El)].
      * left. split; [|rewrite (info_mark _ _ _ _ El), Sm; reflexivity]. split; [reflexivity|]. split; [reflexivity|]. eexists. split; [exact Nt|auto].
      * right. split; [|rewrite <- Sm; apply info_same; now rewrite El]. intros (_ & _ & top & T1 & T2 & T3). apply Ul.
        assert (Eq : forall a b x, (forall p, ~ In (OJoined p a) (tr ++ [OJoined m c])) -> (forall p, ~ In (OJoined p b) (tr ++ [OJoined m c])) ->
          under (tr ++ [OJoined m c]) a x -> under (tr ++ [OJoined m c]) b x -> a = b).
        { intros a b x Ha Hb Ua. induction Ua as [|p x J Ua IH]; intros Ub.
          - apply under_split in Ub as [E0|(q & J2 & U2)]; [congruence|]. now apply Ha in J2.
          - apply under_split in Ub as [->|(q & J2 & U2)]; [now apply Hb in J|]. rewrite (joined_one _ _ L _ _ _ J2 J) in U2. auto. }
        now rewrite (Eq _ _ _ Nt T1 U T2).
  - right. split; [intros []|]. unfold step. destruct (exist s _); [|reflexivity]. cbn [negb]. unfold set_sequencer. destruct q; [|reflexivity].
    apply info_same. cbn. destruct (Nat.eq_dec l m) as [->|N]; [now rewrite upd_eq|now rewrite upd_neq].
  - right. split; [intros []|]. unfold step. destruct (exist s _); [|reflexivity]. cbn [negb]. 
    apply info_same. cbn. destruct (Nat.eq_dec l m) as [->|N]; [now rewrite upd_eq|now rewrite upd_neq].
  - right. split; [intros []|]. unfold step. destruct (exist s _) eqn:E; [|reflexivity]. cbn [negb fst]. cbn [exist] in E. apply Nat.ltb_lt in E.
    apply info_same. destruct (set_check_mp s tr m on l V E) as [(_ & ->)|(_ & ->)]; reflexivity.
  - right. split; [intros []|]. unfold step. destruct (exist s _); reflexivity.
  - cbn [initialises]. destruct (b <? nb s) eqn:E.
    2:{ right. split; [intros (H & _); apply Nat.ltb_lt in H; congruence|]. unfold step. cbn [exist]. now rewrite E. }
    apply Nat.ltb_lt in E. destruct (b_lock (bl s b)) eqn:Lk.
    { right. split; [intros (_ & H & _); congruence|]. unfold step. cbn [exist]. apply Nat.ltb_lt in E. rewrite E. cbn [negb]. unfold lock_model. now rewrite Lk. }
    destruct (lock_model_eq s tr b (conj V K) E Lk) as (t & Mt & Vt & Nt & Bt & ->). cbn [fst].
    destruct (b_par (bl s b)) as [p|] eqn:P; [right; split; [intros (_ & _ & H & _); discriminate|apply info_same; now rewrite Mt]|].
    destruct (fold_init_mp tr l (b_maps (bl s b)) t Vt) as [((m & Hm & U) & Em)|(Nu & Em)].
    + intros m Hm. apply (v_bmaps _ _ V) in Hm. lia.
    + left. apply (v_bmaps _ _ V) in Hm. split; [repeat split; auto; exists m; tauto|]. apply info_mark. now rewrite Em, Mt.
    + right. split; [|apply info_same; now rewrite Em, Mt]. intros (_ & _ & _ & m & H1 & H2 & H3). apply Nu. exists m. rewrite (v_bmaps _ _ V). auto.
Qed.

(** ** Settings *)
Definition fields (x : amap) : option nat * option nat * bool * bool := (p_seq x, p_adp x, p_auto x, p_check x).
Lemma nm_step s x : nm (fst (step s x)) = nm s \/
  (nm (fst (step s x)) = S (nm s) /\ fields (mp (fst (step s x)) (nm s)) = (None, None, false, true)).
Proof.
  unfold step. destruct (exist s x); [|now left]. cbn [negb]. destruct x as [p|b|b|m r rights u f|m c|m q a|m on|m on|b m|b]; try (left; reflexivity).
  - left. unfold add_block. cbn zeta. destruct p; [destruct (b_lock _)|]; reflexivity.
  - unfold create_map. cbn zeta. destruct (b_lock _); [now left|]. right. split; [reflexivity|]. cbn [fst mp]. now rewrite upd_eq.
  - left. unfold add_reg. cbn zeta. destruct (memb _ _); [reflexivity|]. destruct (negb _); reflexivity.
  - left. unfold add_submap. destruct (p_par _); [reflexivity|]. destruct (reaches _ _ _ _) as [[|]|]; try reflexivity. cbn [fst].
    destruct (b_lock _); [|reflexivity]. rewrite <- (proj1 (proj2 (init_map_skel _ _))). reflexivity.
  - left. unfold set_sequencer. destruct q; reflexivity.
  - left. cbn [fst]. now rewrite <- (proj1 (proj2 (set_check_skel s m on))).
  - left. unfold lock_model. destruct (b_lock _); [reflexivity|]. destruct (lock_down _ _ _) as [t|] eqn:E; [|reflexivity]. cbn [fst].
    apply lock_down_skel in E as (E & _). destruct E as (_ & -> & _). destruct (b_par _); [reflexivity|]. now rewrite <- (proj1 (proj2 (fold_init_skel (b_maps (bl t b)) t))).
Qed.
Definition set_of (x : label) (m : nat) (old : option nat * option nat * bool) : option nat * option nat * bool :=
  match x, old with
  | LSeqr m' (Some q) a, (_, _, au) => if Nat.eqb m' m then (Some q, a, au) else old
  | LAuto m' on, (q, a, _) => if Nat.eqb m' m then (q, a, on) else old
  | _, _ => old
  end.
Lemma fields_step s tr x m : inv2 s tr -> m < nm s ->
  fst (fields (mp (fst (step s x)) m)) = set_of x m (fst (fields (mp s m))) /\
  ((exists m' on, x = LCheck m' on /\ sets_check s tr x m /\ p_check (mp (fst (step s x)) m) = on) \/
   (~ sets_check s tr x m /\ p_check (mp (fst (step s x)) m) = p_check (mp s m))).
Proof.
  intros (V & K) Hm.
  assert (Fr : forall t, fields (mp t m) = fields (mp s m) -> fst (fields (mp t m)) = fst (fields (mp s m)) /\ p_check (mp t m) = p_check (mp s m)).
  { intros t E. split; [now rewrite E|]. unfold fields in E. congruence. }
  assert (Mk : forall x, fields (mark x) = fields x) by reflexivity.
  destruct x as [p|b|b|m' r rights u f|m' c|m' q a|m' on|m' on|b m'|b]; cbn [set_of sets_check fields fst].
  - assert (E : fields (mp (fst (step s (LBlock p))) m) = fields (mp s m)).
    { unfold step. destruct (exist s _); [|reflexivity]. cbn [negb]. unfold add_block. cbn zeta. destruct p; [destruct (b_lock _)|]; reflexivity. }
    apply Fr in E as (E1 & E2). cbn [fields fst] in E1. split; [exact E1|right; tauto].
  - assert (E : fields (mp (fst (step s (LMap b))) m) = fields (mp s m)).
    { unfold step. destruct (exist s _); [|reflexivity]. cbn [negb]. unfold create_map. cbn zeta. destruct (b_lock _); [reflexivity|]. cbn [fst mp]. rewrite upd_neq by lia. reflexivity. }
    apply Fr in E as (E1 & E2). cbn [fields fst] in E1. split; [exact E1|right; tauto].
  - assert (E : fields (mp (fst (step s (LReg b))) m) = fields (mp s m)).
    { unfold step. destruct (exist s _); reflexivity. }
    apply Fr in E as (E1 & E2). cbn [fields fst] in E1. split; [exact E1|right; tauto].
  - assert (E : fields (mp (fst (step s (LAdd m' r rights u f))) m) = fields (mp s m)).
    { unfold step. destruct (exist s _); [|reflexivity]. cbn [negb]. unfold add_reg. cbn zeta. destruct (memb r (map fst (p_regs (mp s m')))); [reflexivity|]. destruct (negb _); [reflexivity|].
      cbn [fst set_mp mp set_rg]. destruct (Nat.eq_dec m m') as [->|N]; [now rewrite upd_eq|now rewrite upd_neq]. }
    apply Fr in E as (E1 & E2). cbn [fields fst] in E1. split; [exact E1|right; tauto].
  - assert (E : fields (mp (fst (step s (LSub m' c))) m) = fields (mp s m)).
    { unfold step. destruct (exist s _) eqn:E; [|reflexivity]. cbn [negb]. cbn [exist] in E. apply andb_true_iff in E as (H1 & H2). apply Nat.ltb_lt in H1, H2.
      destruct (add_submap_eq s tr m' c V H1 H2) as [(p & P & ->)|[(P & B & ->)|(P & B & ->)]]; [reflexivity|reflexivity|]. cbn [fst]. cbn zeta.
      assert (N : m' <> c) by (intros ->; apply block_below_lt in B; [lia|apply V]).
      destruct (b_lock _); [|rewrite link_mp by exact N; reflexivity].
      unfold init_map. rewrite (fold_set mark mark_mark). destruct (memb _ _); rewrite ?Mk, link_mp by exact N; reflexivity. }
    apply Fr in E as (E1 & E2). cbn [fields fst] in E1. split; [exact E1|right; tauto].
  - unfold step. cbn [exist]. destruct (Nat.ltb_spec m' (nm s)) as [Hm'|Hm']; cbn [negb].
    + unfold set_sequencer. destruct q as [q|]; [|split; [reflexivity|right; tauto]]. cbn [fst set_mp mp]. rewrite (Nat.eqb_sym m' m). destruct (Nat.eqb_spec m m') as [->|N].
      * rewrite upd_eq. split; [reflexivity|right; tauto].
      * rewrite upd_neq by exact N. split; [reflexivity|right; tauto].
    + destruct (Nat.eqb_spec m' m); [lia|]. destruct q; split; auto; right; tauto.
  - unfold step. cbn [exist]. destruct (Nat.ltb_spec m' (nm s)) as [Hm'|Hm']; cbn [negb].
    + cbn [fst set_mp mp]. rewrite (Nat.eqb_sym m' m). destruct (Nat.eqb_spec m m') as [->|N].
      * rewrite upd_eq. split; [reflexivity|right; tauto].
      * rewrite upd_neq by exact N. split; [reflexivity|right; tauto].
    + destruct (Nat.eqb_spec m' m); [lia|]. split; auto; right; tauto.
  - unfold step. cbn [exist]. destruct (Nat.ltb_spec m' (nm s)) as [Hm'|Hm']; cbn [negb fst].
    + destruct (set_check_mp s tr m' on m V Hm') as [(U & E)|(U & E)]; rewrite E.
      * split; [reflexivity|]. left. exists m', on. auto.
      * split; [reflexivity|]. right. tauto.
    + split; [reflexivity|]. right. split; [lia|reflexivity].
  - assert (E : fields (mp (fst (step s (LDefault b m'))) m) = fields (mp s m)).
    { unfold step. destruct (exist s _); reflexivity. }
    apply Fr in E as (E1 & E2). cbn [fields fst] in E1. split; [exact E1|right; tauto].
  - assert (E : fields (mp (fst (step s (LLock b))) m) = fields (mp s m)).
    { destruct (b <? nb s) eqn:E; [|unfold step; cbn [exist]; now rewrite E]. destruct (b_lock (bl s b)) eqn:Lk.
      { unfold step. cbn [exist]. rewrite E. cbn [negb]. unfold lock_model. now rewrite Lk. }
      apply Nat.ltb_lt in E. destruct (lock_model_eq s tr b (conj V K) E Lk) as (t & Mt & Vt & Nt & Bt & ->). cbn [fst].
      destruct (b_par _); [now rewrite Mt|]. destruct (fold_init_mp tr m (b_maps (bl s b)) t Vt) as [(_ & ->)|(_ & ->)]; rewrite ?Mt; auto.
      intros x Hx. apply (v_bmaps _ _ V) in Hx. lia. }
    apply Fr in E as (E1 & E2). cbn [fields fst] in E1. split; [exact E1|right; tauto].
Qed.
Lemma root_unique s tr l m : inv s tr -> l < nm s -> (forall p, ~ In (OJoined p m) tr) -> under tr m l -> root s l = m.
Proof.
  intros V Hl Nm U. destruct (ups_spec _ _ V l Hl) as (_ & _ & U2 & R).
  assert (Nr : forall p, ~ In (OJoined p (root s l)) tr) by (intros p H; apply (v_par _ _ V) in H; congruence).
  revert U2 Nr. generalize (root s l). intros a Ua Na. clear R Hl. induction Ua as [|p x J Ua IH].
  - apply under_split in U as [E0|(q & J2 & U2)]; [congruence|]. now apply Na in J2.
  - apply under_split in U as [->|(q & J2 & U2)]; [now apply Nm in J|]. rewrite (joined_one _ _ V _ _ _ J2 J) in U2. auto.
Qed.
Lemma under_exists s tr m l : inv s tr -> m < nm s -> under tr m l -> l < nm s.
Proof. intros V Hm U. destruct U as [|p c J U]; [exact Hm|]. apply (v_joined _ _ V) in J. tauto. Qed.
Lemma nm_mono a b : nm (fst (run a)) <= nm (fst (run (a ++ b))).
Proof.
  induction b as [|x b IH] using rev_ind; [now rewrite app_nil_r|]. rewrite app_assoc, run_snoc. cbn [fst].
  destruct (nm_step (fst (run (a ++ b))) x) as [->|(-> & _)]; lia.
Qed.
Lemma run_snoc2 a x b y : run (a ++ x :: b ++ [y]) = (fst (step (fst (run (a ++ x :: b))) y), snd (run (a ++ x :: b)) ++ snd (step (fst (run (a ++ x :: b))) y)).
Proof. rewrite <- run_snoc. f_equal. rewrite <- app_assoc. reflexivity. Qed.

(** ** Entries over a run *)
Lemma info_run a l r rights u f b : accepts_add (fst (run a)) (LAdd l r rights u f) l r rights u f ->
  exists i, info_of (fst (run (a ++ LAdd l r rights u f :: b))) l r = Some (Info rights u f i) /\
    (i = true <-> exists b1 x b2, b = b1 ++ x :: b2 /\
       initialises (fst (run (a ++ LAdd l r rights u f :: b1))) (snd (run (a ++ LAdd l r rights u f :: b1))) x l).
Proof.
  intros A. induction b as [|y b (i & E & H)] using rev_ind.
  - rewrite run_snoc. cbn [fst]. destruct (info_step _ _ (LAdd l r rights u f) l r (proj1 (run_inv a))) as [(rt & u' & f' & (E1 & _) & E2)|(N & _)].
    + injection E1 as <- <- <-. exists false. split; [exact E2|]. split; [discriminate|]. intros (b1 & x & b2 & E & _). destruct b1; discriminate.
    + exfalso. eapply N, A.
  - rewrite run_snoc2. cbn [fst].
    set (s := fst (run (a ++ LAdd l r rights u f :: b))) in *. set (tr := snd (run (a ++ LAdd l r rights u f :: b))).
    assert (V := proj1 (run_inv (a ++ LAdd l r rights u f :: b))). fold s tr in V.
    assert (Sp : forall P : list label -> label -> Prop, (exists b1 x b2, b ++ [y] = b1 ++ x :: b2 /\ P b1 x) <-> (exists b1 x b2, b = b1 ++ x :: b2 /\ P b1 x) \/ P b y).
    { intros P. split.
      - intros (b1 & x & b2 & Eb & HP). destruct b2 as [|z b2] using rev_ind.
        + apply app_inj_tail in Eb as (<- & <-). auto.
        + left. rewrite app_comm_cons, app_assoc in Eb. apply app_inj_tail in Eb as (-> & _). eauto.
      - intros [(b1 & x & b2 & -> & HP)|HP]; [exists b1, x, (b2 ++ [y]); rewrite <- app_assoc; auto|exists b, y, []; auto]. }
    destruct (info_step s tr y l r V) as [(rt & u' & f' & (E1 & E2) & _)|(N & [(I & E2)|(I & E2)])].
    + exfalso. subst y. assert (X : info_of s l r <> None) by congruence. apply (info_in _ tr _ _ (proj1 V)) in X.
      unfold step in E2. destruct (exist s _); [|discriminate]. cbn [negb] in E2. unfold add_reg in E2. cbn zeta in E2.
      assert (Y : memb r (map fst (p_regs (mp s l))) = true) by (apply memb_in; rewrite (v_regs _ _ (proj1 V)), in_regs_of; exact X).
      rewrite Y in E2. discriminate.
    + exists true. rewrite E2, E. split; [reflexivity|]. split; [|reflexivity]. intros _. apply Sp. right. exact I.
    + exists i. rewrite E2, E. split; [reflexivity|]. rewrite H, Sp. split; [auto|]. intros [X|X]; [exact X|contradiction].
Qed.

(** ** Choice *)
Lemma find_first (P : nat -> Prop) (f : nat -> bool) l : (forall x, In x l -> (f x = true <-> P x)) -> first_with P l (find f l).
Proof.
  induction l as [|a l IH]; intros H; cbn [find]; [apply fw_none; easy|].
  destruct (f a) eqn:E.
  - apply (fw_some P [] a l); [easy|]. apply H; [now left|exact E].
  - assert (Na : ~ P a) by (intros X; apply H in X; [congruence|now left]).
    assert (IH' := IH (fun x Hx => H x (or_intror Hx))). revert IH'. generalize (find f l). intros o IH'. destruct IH' as [l N|x y z N Py].
    + apply fw_none. intros x [<-|Hx]; auto.
    + rewrite app_comm_cons. apply fw_some; [|exact Py]. intros w [<-|Hw]; auto.
Qed.
Section Choice.
Context (s : ms) (tr : list out) (V : inv s tr).
Lemma in_ups l m : l < nm s -> memb m (ups s l) = true <-> strictly tr m l.
Proof. intros H. rewrite memb_in. apply (ups_spec _ _ V l H). Qed.
Lemma map_exists r l : In l (maps_of tr r) -> l < nm s.
Proof. intros H. apply in_maps_of, (v_added _ _ V) in H. tauto. Qed.
Lemma local_chosen r m : chosen tr r m (local_map s r m).
Proof.
  unfold chosen, local_map. rewrite (v_rmaps _ _ V). split.
  - intros H. apply memb_in in H. now rewrite H.
  - intros H. assert (X := H). apply memb_out in X. rewrite X. apply find_first. intros l Hl. rewrite in_ups by (eapply map_exists; eauto). split; [apply strictly_under|].
    intros U. apply under_split in U as [->|U]; [contradiction|exact U].
Qed.
Lemma is_in_map_spec r m : is_in_map s r m = true <-> exists l, In (OAdded l r) tr /\ under tr m l.
Proof.
  unfold is_in_map. rewrite (v_rmaps _ _ V), orb_true_iff, memb_in, existsb_exists. split.
  - intros [H|(l & Hl & H)]; [exists m; rewrite <- in_maps_of; split; [exact H|constructor]|]. exists l. rewrite <- in_maps_of.
    apply in_ups in H; [|eapply map_exists; eauto]. split; [exact Hl|now apply strictly_under].
  - intros (l & Hl & U). apply in_maps_of in Hl. apply under_split in U as [->|U]; [auto|]. right. exists l. split; [exact Hl|]. apply in_ups; [eapply map_exists; eauto|exact U].
Qed.
Lemma local_some r m : (exists l, In (OAdded l r) tr /\ under tr m l) <-> local_map s r m <> None.
Proof.
  rewrite <- is_in_map_spec. unfold is_in_map, local_map. destruct (memb m (r_maps (rg s r))); cbn [orb]; [split; [discriminate|reflexivity]|].
  induction (r_maps (rg s r)) as [|l ls IH]; cbn; [split; [discriminate|congruence]|]. destruct (memb m (ups s l)); cbn; [split; [discriminate|reflexivity]|exact IH].
Qed.
Lemma local_in r m l : local_map s r m = Some l -> In (OAdded l r) tr.
Proof.
  unfold local_map. rewrite (v_rmaps _ _ V). destruct (memb m (maps_of tr r)) eqn:E; [intros [= <-]; apply in_maps_of; now apply memb_in|].
  intros F. apply find_some in F as (F & _). now apply in_maps_of.
Qed.
Lemma by_block_spec r ms : (forall l, In l ms -> p_blk (mp s l) = r_blk (rg s r)) -> ms <> [] ->
  by_block s r ms = match b_def (bl s (r_blk (rg s r))) with Some d => local_map s r d | None => None end.
Proof.
  induction ms as [|l ms IH]; intros H N; [congruence|]. cbn [by_block]. rewrite (H l) by now left.
  destruct ms as [|l2 ms]; [cbn [by_block]; destruct (b_def _) as [d|]; [destruct (local_map s r d)|]; reflexivity|].
  rewrite IH by (try discriminate; intros x Hx; apply H; now right). destruct (b_def _) as [d|]; [destruct (local_map s r d)|]; reflexivity.
Qed.
Lemma default_chosen r : chosen_default s tr r (default_map s r).
Proof.
  unfold chosen_default, default_map. rewrite (v_rmaps _ _ V).
  assert (B : forall l, In l (maps_of tr r) -> p_blk (mp s l) = r_blk (rg s r)).
  { intros l Hl. apply in_maps_of, (v_added _ _ V) in Hl as (_ & _ & ->). reflexivity. }
  destruct (maps_of tr r) as [|l [|l2 ls]]; [reflexivity|reflexivity|].
  rewrite by_block_spec by (exact B || discriminate). destruct (b_def _) as [d|]; [|reflexivity].
  exists (local_map s r d). split; [apply local_chosen|reflexivity].
Qed.
Lemma default_in r l : default_map s r = Some l -> In (OAdded l r) tr.
Proof.
  unfold default_map. rewrite (v_rmaps _ _ V).
  assert (B : forall l, In l (maps_of tr r) -> p_blk (mp s l) = r_blk (rg s r)).
  { intros x Hx. apply in_maps_of, (v_added _ _ V) in Hx as (_ & _ & ->). reflexivity. }
  rewrite <- in_maps_of. destruct (maps_of tr r) as [|x [|l2 ls]] eqn:E; [discriminate|intros [= <-]; now left|].
  rewrite by_block_spec by (exact B || discriminate). destruct (b_def _) as [d|]; [|intros [= <-]; now left].
  destruct (local_map s r d) as [y|] eqn:L; intros [= <-]; [|now left]. apply local_in in L. rewrite <- E. now apply in_maps_of.
Qed.
Lemma default_none r : default_map s r = None <-> maps_of tr r = [].
Proof.
  unfold default_map. rewrite (v_rmaps _ _ V). destruct (maps_of tr r) as [|x [|l2 ls]]; [tauto|split; discriminate|].
  destruct (by_block s r (x :: l2 :: ls)); split; discriminate.
Qed.

(** ** Lists *)
Lemma submaps_spec m : m < nm s -> exists l, collect (fun m => p_sub (mp s m)) (S (nb s)) s m = Some l /\ get_submaps s m = l /\
  NoDup l /\ (forall x, In x l <-> strictly tr m x).
Proof.
  intros H. destruct (collect_tree s tr V (fun m => p_sub (mp s m)) m H) as (E & I & N). eexists. split; [exact E|]. split; [unfold get_submaps; now rewrite E|].
  split.
  - clear I E H. induction N as [|x l Nx N IH]; [constructor|]. cbn [flat_map]. rewrite (v_sub _ _ V).
    assert (D : forall y, In y (subs_of tr x) -> ~ In y (flat_map (fun m => p_sub (mp s m)) l)).
    { intros y Hy H. apply in_flat_map in H as (z & Hz & H). rewrite (v_sub _ _ V) in H. apply in_subs_of in Hy, H. rewrite (joined_one _ _ V _ _ _ Hy H) in Nx. contradiction. }
    revert D. generalize (subs_of tr x), (v_nodup _ _ V x). intros l1 N1 D. induction N1 as [|y l1 Ny N1 IH1]; [exact IH|]. cbn. constructor.
    + rewrite in_app_iff. intros [X|X]; [contradiction|]. eapply D; [now left|exact X].
    + apply IH1. intros z Hz. apply D. now right.
  - intros x. rewrite in_flat_map. split.
    + intros (p & Hp & Hx). rewrite (v_sub _ _ V) in Hx. apply in_subs_of in Hx. exists p. split; [exact Hx|now apply I].
    + intros (p & J & U). exists p. rewrite I, (v_sub _ _ V), in_subs_of. auto.
Qed.
Lemma registers_spec m r : m < nm s -> exists ls, NoDup ls /\ (forall l, In l ls <-> In (OAdded l r) tr /\ under tr m l) /\
  count_occ Nat.eq_dec (get_registers s m) r = length ls.
Proof.
  intros H. destruct (collect_tree s tr V (fun m => map fst (p_regs (mp s m))) m H) as (E & I & N).
  unfold get_registers. rewrite E. cbn [get]. exists (filter (fun l => memb r (regs_of tr l)) (tree s m)). split; [now apply NoDup_filter|]. split.
  - intros l. rewrite filter_In, I, memb_in, in_regs_of. tauto.
  - clear -V. induction (tree s m) as [|x l IH]; [reflexivity|]. cbn [flat_map filter]. rewrite count_occ_app, IH, (v_regs _ _ V).
    destruct (memb r (regs_of tr x)) eqn:M.
    + cbn [length]. apply memb_in in M. assert (X := v_rnodup _ _ V x). apply (NoDup_count_occ' Nat.eq_dec) with (x := r) in X; [lia|exact M].
    + apply memb_out, (count_occ_not_In Nat.eq_dec) in M. now rewrite M.
Qed.
End Choice.

(** ** What stays *)
Lemma skel_keeps s t : skel s t -> (forall b, b_par (bl t b) = b_par (bl s b)) /\ (forall m, p_blk (mp t m) = p_blk (mp s m)).
Proof. intros (_ & _ & _ & _ & A & B). split; intros x; [now rewrite (proj1 (B x))|now rewrite (proj1 (A x))]. Qed.
Lemma keep_step s tr x : inv2 s tr ->
  (forall b, b < nb s -> b < nb (fst (step s x)) /\ b_par (bl (fst (step s x)) b) = b_par (bl s b)) /\
  (forall m, m < nm s -> p_blk (mp (fst (step s x)) m) = p_blk (mp s m)).
Proof.
  intros (V & K).
  assert (Sk : forall t, skel s t -> (forall b, b < nb s -> b < nb t /\ b_par (bl t b) = b_par (bl s b)) /\ (forall m, m < nm s -> p_blk (mp t m) = p_blk (mp s m))).
  { intros t H. assert (X := proj1 H). apply skel_keeps in H as (A & B). split; intros z Hz; [rewrite <- X|]; auto. }
  assert (Same : (forall b, b < nb s -> b < nb s /\ b_par (bl s b) = b_par (bl s b)) /\ (forall m, m < nm s -> p_blk (mp s m) = p_blk (mp s m))) by auto.
  destruct x as [p|b|b|m r rights u f|m c|m q a|m on|m on|b m|b]; unfold step; (destruct (exist s _) eqn:E; [|exact Same]); cbn [negb].
  - assert (X : forall t, nb t = S (nb s) -> mp t = mp s -> (forall b, b < nb s -> b_par (bl t b) = b_par (bl s b)) ->
      (forall b, b < nb s -> b < nb t /\ b_par (bl t b) = b_par (bl s b)) /\ (forall m, m < nm s -> p_blk (mp t m) = p_blk (mp s m))).
    { intros t H1 H2 H3. split; intros z Hz; [rewrite H1; auto|now rewrite H2]. }
    assert (Y : forall b, b < nb s -> bl (new_block s p) b = bl s b) by (intros b Hb; cbn [new_block bl]; apply upd_neq; lia).
    unfold add_block. cbn zeta. destruct p as [p|]; [destruct (b_lock _)|]; apply X; try reflexivity; intros b Hb.
    + cbn [fst]. now rewrite Y.
    + cbn [fst set_bl bl]. cbn [exist] in E. apply Nat.ltb_lt in E. destruct (Nat.eq_dec b p) as [->|N]; [rewrite upd_eq; cbn [b_par]; now rewrite Y|rewrite upd_neq by exact N; now rewrite Y].
    + cbn [fst]. now rewrite Y.
  - unfold create_map. cbn zeta. destruct (b_lock _) eqn:L; [exact Same|]. cbn [fst nb bl nm mp]. split.
    + intros z Hz. split; [exact Hz|]. destruct (Nat.eq_dec z b) as [->|N]; [now rewrite upd_eq|now rewrite upd_neq].
    + intros z Hz. rewrite upd_neq by lia. reflexivity.
  - exact Same.
  - unfold add_reg. cbn zeta. destruct (memb r (map fst (p_regs (mp s m)))); [exact Same|]. destruct (negb _); [exact Same|]. cbn [fst set_mp set_rg nb bl nm mp].
    split; [auto|]. intros z Hz. destruct (Nat.eq_dec z m) as [->|N]; [now rewrite upd_eq|now rewrite upd_neq].
  - cbn [exist] in E. apply andb_true_iff in E as (H1 & H2). apply Nat.ltb_lt in H1, H2.
    destruct (add_submap_eq s tr m c V H1 H2) as [(p & P & ->)|[(P & B & ->)|(P & B & ->)]]; [exact Same|exact Same|]. cbn [fst]. cbn zeta.
    assert (N : m <> c) by (intros ->; apply block_below_lt in B; [lia|apply V]).
    assert (L : (forall b, b < nb s -> b < nb (link s m c) /\ b_par (bl (link s m c) b) = b_par (bl s b)) /\ (forall k, k < nm s -> p_blk (mp (link s m c) k) = p_blk (mp s k))).
    { split; [auto|]. intros k _. now rewrite link_mp. }
    destruct (b_lock _); [|exact L]. assert (I := init_map_skel (link s m c) (root (link s m c) m)). assert (I1 := proj1 I). apply skel_keeps in I as (I2 & I3).
    split; [intros z Hz; rewrite <- I1, I2; now apply L|intros z Hz; rewrite I3; now apply L].
  - unfold set_sequencer. destruct q; [|exact Same]. apply Sk, skel_set_mp. repeat split.
  - apply Sk, skel_set_mp. repeat split.
  - apply Sk, set_check_skel.
  - apply Sk, skel_set_bl; reflexivity.
  - unfold lock_model. destruct (b_lock _); [exact Same|]. destruct (lock_down _ _ _) as [t|] eqn:L; [|exact Same]. apply lock_down_skel in L as (L & _). apply Sk. cbn [fst].
    destruct (b_par (bl t b)); [exact L|]. eapply skel_trans; [exact L|apply fold_init_skel].
Qed.
Lemma nb_mono a b : nb (fst (run a)) <= nb (fst (run (a ++ b))).
Proof.
  induction b as [|x b IH] using rev_ind; [now rewrite app_nil_r|]. rewrite app_assoc, run_snoc. cbn [fst].
  destruct (keep_step _ _ x (proj1 (run_inv (a ++ b)))) as (K & _). destruct (nb (fst (run (a ++ b)))) as [|n]; [lia|]. destruct (K n) as (K1 & _); lia.
Qed.
Lemma keep_run a b : (forall x, x < nb (fst (run a)) -> b_par (bl (fst (run (a ++ b))) x) = b_par (bl (fst (run a)) x)) /\
  (forall m, m < nm (fst (run a)) -> p_blk (mp (fst (run (a ++ b))) m) = p_blk (mp (fst (run a)) m)).
Proof.
  induction b as [|y b (I1 & I2)] using rev_ind; [rewrite app_nil_r; auto|]. rewrite app_assoc, run_snoc. cbn [fst].
  destruct (keep_step _ _ y (proj1 (run_inv (a ++ b)))) as (K1 & K2). split.
  - intros x Hx. rewrite (proj2 (K1 x ltac:(assert (X := nb_mono a b); lia))). auto.
  - intros m Hm. rewrite K2 by (assert (X := nm_mono a b); lia). auto.
Qed.
Lemma trace_mono a b o : In o (snd (run a)) -> In o (snd (run (a ++ b))).
Proof.
  intros H. induction b as [|y b IH] using rev_ind; [now rewrite app_nil_r|]. rewrite app_assoc, run_snoc. cbn [snd]. apply in_or_app. auto.
Qed.
Lemma under_mono a b m l : under (snd (run a)) m l -> under (snd (run (a ++ b))) m l.
Proof. intros U. induction U as [|p c J U IH]; [constructor|]. eapply under_sub; [apply trace_mono; exact J|exact IH]. Qed.
