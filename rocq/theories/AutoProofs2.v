From Coq Require Import List Bool Arith ZArith Ascii String Lia Permutation Sorted.
From Verif Require Import Prelude SvModel SvSpec SvProofs ResourceModel ResourceProofs AutoModel AutoSpec AutoPool AutoProofs.
Import ListNotations.
Local Open Scope nat_scope.

(** ** Consequences of the sorting equation *)
Section Sort.
Context {R : Type} (prec : R -> Z).
Lemma sort_perm_gen (q : list R) : forall ks, NoDup ks -> (forall r, In r q -> In (prec r) ks) ->
  Permutation (flat_map (fun k => filter (of_prec prec k) q) ks) q.
Proof.
  induction q as [|r q IH]; intros ks N C.
  - clear. induction ks; cbn; auto.
  - apply perm_trans with (r :: flat_map (fun k => filter (of_prec prec k) q) ks); [|constructor; apply IH; auto; intros x I; apply C; cbn; auto].
    assert (I : In (prec r) ks) by (apply C; cbn; auto). clear IH C.
    induction ks as [|k ks IHk]; [contradiction|]. inversion N as [|? ? Nk N']; subst. cbn [flat_map filter].
    change (of_prec prec k r) with (prec r =? k)%Z. destruct (Z.eqb_spec (prec r) k) as [E|E].
    + cbn [app]. constructor. apply Permutation_app_head.
      assert (F : flat_map (fun k0 => if of_prec prec k0 r then r :: filter (of_prec prec k0) q else filter (of_prec prec k0) q) ks =
                  flat_map (fun k0 => filter (of_prec prec k0) q) ks).
      { clear -Nk E. induction ks as [|k' ks IH]; cbn; auto. rewrite IH by (intros I; apply Nk; cbn; auto).
        change (of_prec prec k' r) with (prec r =? k')%Z. destruct (Z.eqb_spec (prec r) k'); auto. elim Nk. cbn. left. congruence. }
      cbn [filter]. rewrite F. apply Permutation_refl.
    + destruct I as [I|I]; [congruence|]. specialize (IHk N' I).
      eapply perm_trans; [apply Permutation_app_head, IHk|]. apply Permutation_sym, Permutation_middle.
Qed.
Lemma sort_perm (q : list R) : Permutation (sort_by_precedence prec q) q.
Proof.
  rewrite sort_eq. apply sort_perm_gen.
  - apply NoDup_rev, first_seen_nodup.
  - intros r I. apply -> in_rev. apply first_seen_in. now apply in_map.
Qed.
Lemma filter_nil {A} (p : A -> bool) l : (forall x, In x l -> p x = false) -> filter p l = [].
Proof. induction l as [|x l IH]; intros H; cbn; auto. rewrite (H x) by (cbn; auto). apply IH. intros; apply H; cbn; auto. Qed.
Lemma sort_stable (q : list R) k : filter (of_prec prec k) (sort_by_precedence prec q) = filter (of_prec prec k) q.
Proof.
  rewrite sort_eq. pose proof (NoDup_rev (first_seen_nodup (map prec q))) as N.
  assert (C : In k (rev (first_seen (map prec q))) \/ filter (of_prec prec k) q = []).
  { destruct (in_dec Z.eq_dec k (map prec q)) as [I|I].
    - left. apply -> in_rev. now apply first_seen_in.
    - right. apply filter_nil. intros x Ix. unfold of_prec. apply Z.eqb_neq. intros <-. apply I. now apply in_map. }
  assert (C2 : In k (rev (first_seen (map prec q))) -> filter (of_prec prec k) (flat_map (fun k0 => filter (of_prec prec k0) q) (rev (first_seen (map prec q)))) = filter (of_prec prec k) q).
  { clear C. revert N. generalize (rev (first_seen (map prec q))). induction l as [|k' l IH]; intros N I; [contradiction|].
    inversion N as [|? ? Nk N']; subst. cbn [flat_map]. rewrite filter_app. destruct I as [-> |I].
    - assert (E : filter (of_prec prec k) (flat_map (fun k0 => filter (of_prec prec k0) q) l) = []).
      { apply filter_nil. intros x Ix. apply in_flat_map in Ix. destruct Ix as (k' & Ik & Ix). apply filter_In in Ix. destruct Ix as [_ Ix].
        unfold of_prec in *. apply Z.eqb_eq in Ix. apply Z.eqb_neq. congruence. }
      rewrite E, app_nil_r, AutoProofs.filter_filter. apply filter_ext. intros x. destruct (of_prec prec k x); auto.
    - rewrite (IH N' I). rewrite (filter_nil (of_prec prec k)); auto. intros x Ix. apply filter_In in Ix. destruct Ix as [_ Ix].
      unfold of_prec in *. apply Z.eqb_eq in Ix. apply Z.eqb_neq. congruence. }
  destruct C as [C|C]; [auto|]. rewrite C. apply filter_nil. intros x Ix. apply in_flat_map in Ix. destruct Ix as (k' & Ik & Ix).
  apply filter_In in Ix. destruct Ix as [Iq _]. destruct (of_prec prec k x) eqn:E; auto. assert (I : In x (filter (of_prec prec k) q)) by (apply filter_In; auto).
  rewrite C in I. contradiction.
Qed.
Lemma sort_order (l1 : list R) r1 l2 : ~ In (prec r1) (map prec l1) ->
  let q := l1 ++ r1 :: l2 in
  exists a b, sort_by_precedence prec q = a ++ filter (of_prec prec (prec r1)) q ++ b /\
    (forall r, In r a <-> In r q /\ prec r <> prec r1 /\ ~ In (prec r) (map prec l1)) /\
    (forall r, In r b <-> In r q /\ In (prec r) (map prec l1)).
Proof.
  intros N q. rewrite sort_eq. unfold q at 2. rewrite map_app, first_seen_app. cbn [map first_seen filter].
  assert (NI : not_in (map prec l1) (prec r1) = true) by now apply not_in_spec. rewrite NI.
  rewrite rev_app_distr. cbn [rev]. rewrite <- app_assoc, !flat_map_app. cbn [flat_map app]. rewrite app_nil_r.
  eexists. eexists. split; [reflexivity|]. split; intros r; rewrite in_flat_map.
  - split.
    + intros (k & I & F). apply in_rev in I. apply filter_In in I. destruct I as [I NI2]. apply filter_In in I. destruct I as [I NE].
      apply filter_In in F. destruct F as [F E]. unfold of_prec in E. apply Z.eqb_eq in E. subst k.
      apply not_in_spec in NI2. apply negb_true_iff, Z.eqb_neq in NE. auto.
    + intros (I & NE & NI2). exists (prec r). rewrite <- in_rev, !filter_In, not_in_spec, negb_true_iff, Z.eqb_neq, first_seen_in.
      unfold of_prec. rewrite Z.eqb_refl. repeat split; auto. unfold q in I. rewrite in_app_iff in I. destruct I as [I|[->|I]]; try congruence.
      * elim NI2. now apply in_map.
      * now apply in_map.
  - split.
    + intros (k & I & F). apply in_rev in I. apply (proj1 (first_seen_in _ _)) in I. apply filter_In in F. destruct F as [F E]. unfold of_prec in E.
      apply Z.eqb_eq in E. now subst k.
    + intros (I & IP). exists (prec r). rewrite <- in_rev, filter_In, first_seen_in. unfold of_prec. rewrite Z.eqb_refl. auto.
Qed.

Lemma first_seen_rising ks : (forall l1 k l2, ks = l1 ++ k :: l2 -> ~ In k l1 -> forall x, In x l1 -> (x < k)%Z) ->
  StronglySorted Z.lt (first_seen ks).
Proof.
  intros H. induction ks as [|k ks IH] using rev_ind; [constructor|].
  assert (IH' : StronglySorted Z.lt (first_seen ks)).
  { apply IH. intros l1 k' l2 -> N x I. apply (H l1 k' (l2 ++ [k])); auto. now rewrite <- app_assoc. }
  rewrite first_seen_app. cbn [first_seen filter]. destruct (not_in ks k) eqn:NI; [|now rewrite app_nil_r].
  apply not_in_spec in NI. assert (F : Forall (fun x => (x < k)%Z) (first_seen ks)).
  { apply Forall_forall. intros x I. apply (proj1 (first_seen_in _ _)) in I. apply (H ks k []); auto. }
  clear -IH' F. induction (first_seen ks) as [|x l IHl]; [repeat constructor|].
  apply StronglySorted_inv in IH'. destruct IH' as [S1 S2]. apply Forall_cons_iff in F. destruct F as [Fx F].
  cbn. constructor; auto. apply Forall_app. auto.
Qed.
Lemma sorted_rev ks : StronglySorted Z.lt ks -> StronglySorted Z.gt (rev ks).
Proof.
  induction 1 as [|k ks S IH F]; cbn; [constructor|]. 
  assert (F' : Forall (fun x => (x > k)%Z) (rev ks)) by (apply Forall_rev; revert F; apply Forall_impl; lia).
  clear -IH F'. induction (rev ks) as [|x l IHl]; [repeat constructor|]. apply StronglySorted_inv in IH. destruct IH as [S1 S2].
  apply Forall_cons_iff in F'. destruct F' as [Fx F']. cbn. constructor; auto. apply Forall_app. auto.
Qed.
Lemma sort_documented (q : list R) :
  (forall l1 r l2, q = l1 ++ r :: l2 -> ~ In (prec r) (map prec l1) -> forall x, In x l1 -> (prec x < prec r)%Z) ->
  StronglySorted (fun x y => (prec x >= prec y)%Z) (sort_by_precedence prec q).
Proof.
  intros H. rewrite sort_eq.
  assert (S : StronglySorted Z.gt (rev (first_seen (map prec q)))).
  { apply sorted_rev, first_seen_rising. intros l1 k l2 E N x I.
    apply map_eq_app in E. destruct E as (m1 & m2 & -> & <- & E). destruct m2 as [|r m2]; [discriminate|]. injection E as <- <-.
    apply in_map_iff in I. destruct I as (y & <- & I). eapply H; eauto. }
  induction S as [|k ks S IH F]; cbn [flat_map]; [constructor|].
  assert (A : Forall (fun x => prec x = k) (filter (of_prec prec k) q)).
  { apply Forall_forall. intros x I. apply filter_In in I. destruct I as [_ E]. now apply Z.eqb_eq. }
  assert (B : Forall (fun y => (k > prec y)%Z) (flat_map (fun k0 => filter (of_prec prec k0) q) ks)).
  { apply Forall_forall. intros y I. apply in_flat_map in I. destruct I as (k' & I & Fi). apply filter_In in Fi. destruct Fi as [_ E].
    apply Z.eqb_eq in E. rewrite Forall_forall in F. rewrite E. auto. }
  clear -A B IH. induction (filter (of_prec prec k) q) as [|x l IHl]; cbn; auto. apply Forall_cons_iff in A. destruct A as [Ax A].
  constructor; auto. apply Forall_app. split.
  - revert A. apply Forall_impl. intros; lia.
  - revert B. apply Forall_impl. intros; lia.
Qed.
End Sort.

(** ** Visible resources *)
Lemma scope_loop_eq {R} (sees : R -> bool) tab : forall p q, p < List.length tab ->
  scope_loop sees tab p q = q ++ flat_map (filter sees) (rev (firstn (S p) tab)).
Proof.
  induction p as [|p IH]; intros q L; cbn [scope_loop].
  - destruct tab as [|x tab]; [cbn in L; lia|]. cbn. now rewrite app_nil_r.
  - rewrite IH by lia. rewrite <- app_assoc. f_equal.
    assert (E : firstn (S (S p)) tab = firstn (S p) tab ++ [nth (S p) tab []]).
    { clear -L. revert tab L. induction (S p) as [|k IHk]; intros [|x tab] L; cbn in L; try lia; [reflexivity|].
      change (firstn (S (S k)) (x :: tab)) with (x :: firstn (S k) tab). rewrite IHk by lia. reflexivity. }
    rewrite E, rev_app_distr. reflexivity.
Qed.
Lemma lookup_scope_eq {R} (sees : R -> bool) tab : lookup_scope sees tab = flat_map (filter sees) (rev tab).
Proof.
  unfold lookup_scope. destruct (List.length tab) as [|p] eqn:L; [destruct tab; [reflexivity|discriminate]|].
  rewrite scope_loop_eq by lia. now rewrite <- L, firstn_all.
Qed.

Section Reach.
Context (smatch : nat -> nat -> bool).
Definition wf (s : pool) (names : list nat) : Prop :=
  NoDup names /\ (forall n id, In id (rtab s n) -> r_name (ResourceModel.heap s id) = n /\ id < next s /\ In n names) /\
  (forall k id, cfg s k = Some id -> id < next s /\ r_name (ResourceModel.heap s id) = snd k).

Lemma wf_mono s names s' n : wf s names ->
  next s <= next s' -> (forall i, i < next s -> r_name (ResourceModel.heap s' i) = r_name (ResourceModel.heap s i)) ->
  (forall n0 id, In id (rtab s' n0) -> In id (rtab s n0) \/ (Some n0 = n /\ id < next s' /\ r_name (ResourceModel.heap s' id) = n0)) ->
  (forall k id, cfg s' k = Some id -> cfg s k = Some id \/ (id < next s' /\ r_name (ResourceModel.heap s' id) = snd k)) ->
  wf s' (add_name names n).
Proof.
  intros (N & T & C) L H1 H2 H3.
  assert (Inn : forall x, In x names -> In x (add_name names n)).
  { intros x I. destruct n as [n|]; cbn; auto. destruct existsb; auto. apply in_app_iff. auto. }
  split; [|split].
  - destruct n as [n|]; cbn; auto. destruct (existsb (Nat.eqb n) names) eqn:E; auto.
    assert (NI : ~ In n names).
    { intros I. assert (existsb (Nat.eqb n) names = true) by (apply existsb_exists; exists n; split; auto; apply Nat.eqb_refl). congruence. }
    clear -N NI. induction names as [|x l IH]; cbn; [repeat constructor; auto|]. inversion N; subst. constructor.
    + rewrite in_app_iff. cbn. intros [I|[<-|[]]]; auto. apply NI. cbn. auto.
    + apply IH; auto. intros I. apply NI. cbn. auto.
  - intros n0 id I. apply H2 in I. destruct I as [I|(<- & A & B)].
    + destruct (T _ _ I) as (A & B & C0). rewrite H1 by auto. repeat split; auto; lia.
    + repeat split; auto. cbn. destruct (existsb (Nat.eqb n0) names) eqn:E.
      * apply existsb_exists in E. destruct E as (y & I & E). apply Nat.eqb_eq in E. now subst.
      * apply in_app_iff. cbn. auto.
  - intros k id I. apply H3 in I. destruct I as [I|I]; auto. destruct (C _ _ I) as [A B]. rewrite H1 by auto. split; auto. lia.
Qed.

Lemma in_remove_first id q x : In x (remove_first id q) -> In x q.
Proof. induction q as [|y q IH]; cbn; auto. destruct (Nat.eqb y id); cbn; intuition. Qed.

Lemma wf_write s names id v : wf s names -> wf (write s id v) (add_name names None).
Proof.
  intros W. apply (wf_mono s names _ None W).
  - now rewrite write_next.
  - intros i _. now apply write_keeps.
  - intros n0 i. rewrite write_rtab. auto.
  - intros k i. rewrite write_cfg. auto.
Qed.
Lemma wf_set_heap s names id r : r_name r = r_name (ResourceModel.heap s id) -> wf s names -> wf (set_heap s id r) (add_name names None).
Proof.
  intros E W. apply (wf_mono s names _ None W); cbn; auto. intros i _. unfold upd. destruct (Nat.eqb_spec i id); subst; auto.
Qed.
Lemma wf_new s names n sc : wf s names -> wf (fst (new_rsrc s n sc)) (add_name names None).
Proof.
  intros W. apply (wf_mono s names _ None W); cbn; auto. intros i L. rewrite upd_neq; auto. lia.
Qed.
Lemma wf_pool_set s names id b : id < next s -> wf s names -> wf (pool_set s id b) (add_name names (Some (r_name (ResourceModel.heap s id)))).
Proof.
  intros L W. apply (wf_mono s names _ _ W); cbn [pool_set next ResourceModel.heap rtab cfg]; auto.
  intros n0 i. unfold upd. destruct (Nat.eqb_spec n0 (r_name (ResourceModel.heap s id))) as [-> |]; auto.
  destruct b; [intros [<-|I]; auto|]. rewrite in_app_iff. cbn. intros [I|[<-|[]]]; auto.
Qed.

Lemma reach_wf s names : reach smatch s names -> wf s names.
Proof.
  induction 1 as [|s names o R IH OK]; [split; [constructor|split; [contradiction|discriminate]]|].
  destruct o as [sc n v|sc n v|n sc|id v|id p|id|id|id b|ct d bu i f v]; cbn [rstep op_name].
  - unfold rdb_set. cbn [new_rsrc]. set (s1 := Pool _ _ _ _).
    assert (W1 : wf s1 names) by (apply (wf_new s names n sc IH)).
    pose proof (wf_write s1 names (next s) v W1) as W2. cbn [add_name] in W2.
    assert (E : r_name (ResourceModel.heap (write s1 (next s) v) (next s)) = n).
    { rewrite (proj1 (write_keeps s1 (next s) v (next s))). unfold s1. cbn. now rewrite upd_eq. }
    rewrite <- E. apply wf_pool_set; auto. rewrite write_next. cbn. lia.
  - unfold write_by_name. destruct get_by_name; [now apply wf_write|exact IH].
  - now apply wf_new.
  - now apply wf_write.
  - now apply wf_set_heap.
  - now apply wf_set_heap.
  - now apply wf_set_heap.
  - now apply wf_pool_set.
  - unfold config_set. destruct (cfg s (ct, i, f)) as [id|] eqn:EC.
    + destruct IH as (N & T & C). destruct (C _ _ EC) as [L E]. cbn in E.
      set (s1 := set_heap s id _). assert (W1 : wf s1 names) by (apply (wf_set_heap s names id); [reflexivity|split; auto]).
      pose proof (wf_write s1 names id v W1) as W2. cbn [add_name] in W2. set (s2 := write s1 id v) in *.
      assert (E2 : r_name (ResourceModel.heap s2 id) = f).
      { unfold s2. rewrite (proj1 (write_keeps s1 id v id)). unfold s1. cbn. rewrite upd_eq. exact E. }
      unfold set_priority_name. rewrite E2. destruct (existsb (Nat.eqb id) (rtab s2 f)) eqn:EX.
      * apply (wf_mono s2 names _ _ W2); cbn [next ResourceModel.heap rtab cfg]; auto. intros n0 j. unfold upd.
        destruct (Nat.eqb_spec n0 f) as [-> |]; auto. rewrite in_app_iff. cbn. intros [I|[<-|[]]]; [left; now apply in_remove_first in I|].
        left. apply existsb_exists in EX. destruct EX as (y & I & Ey). apply Nat.eqb_eq in Ey. now subst.
      * apply (wf_mono s2 names _ _ W2); auto.
    + cbn [new_rsrc]. set (s1 := Pool _ _ _ (fun k => _)). 
      assert (W1 : wf s1 names).
      { apply (wf_mono s names s1 None IH); unfold s1; cbn [next ResourceModel.heap rtab cfg]; auto.
        - intros j L. rewrite upd_neq; auto. lia.
        - intros k id. destruct (ckey_eqb k (ct, i, f)) eqn:EK; [|auto]. apply ckey_eqb_eq in EK. subst k. intros [= <-]. right. split; [lia|]. cbn. now rewrite upd_eq. }
      set (s2 := set_heap s1 (next s) _). assert (W2 : wf s2 names) by (apply (wf_set_heap s1 names (next s)); [reflexivity|auto]).
      pose proof (wf_write s2 names (next s) v W2) as W3. cbn [add_name] in W3.
      assert (E : r_name (ResourceModel.heap (write s2 (next s) v) (next s)) = f).
      { rewrite (proj1 (write_keeps s2 (next s) v (next s))). unfold s2, s1. cbn. rewrite !upd_eq. reflexivity. }
      rewrite <- E. apply wf_pool_set; auto. rewrite write_next. cbn. lia.
Qed.

Lemma visible_in s names path id : wf s names ->
  In id (visible_ids smatch s names path) <-> In id (rtab s (r_name (ResourceModel.heap s id))) /\ smatch (r_scope (ResourceModel.heap s id)) path = true.
Proof.
  intros (N & T & _). unfold visible_ids. rewrite lookup_scope_eq, in_flat_map. split.
  - intros (q & I & F). apply in_rev in I. apply in_map_iff in I. destruct I as (n & <- & In1). apply filter_In in F. destruct F as [F E].
    destruct (T _ _ F) as (<- & _). auto.
  - intros (I & E). destruct (T _ _ I) as (_ & _ & In1). exists (rtab s (r_name (ResourceModel.heap s id))). split.
    + apply -> in_rev. now apply in_map.
    + apply filter_In. auto.
Qed.
Lemma visible_split s l1 n l2 path :
  visible_ids smatch s (l1 ++ n :: l2) path = visible_ids smatch s l2 path ++ lookup_name smatch s path n ++ visible_ids smatch s l1 path.
Proof.
  unfold visible_ids. rewrite !lookup_scope_eq, map_app, rev_app_distr. cbn [map rev]. rewrite !flat_map_app. cbn [flat_map].
  now rewrite app_nil_r, <- app_assoc.
Qed.
End Reach.
