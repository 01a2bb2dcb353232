From Coq Require Import ZArith List Bool Arith Lia ZifyBool ZifyNat Sorted.
From Verif Require Import Prelude PyList PoolModel PoolSpec.
Import ListNotations.
Open Scope Z_scope.

Section Proofs.
Context {K V : Type} (eq_dec : forall a b : K, {a = b} + {a <> b}).
Implicit Types (d : dict K V) (p : pool K V).
Local Notation d_get := (d_get eq_dec).
Local Notation d_set := (d_set eq_dec).
Local Notation d_del := (d_del eq_dec).

Lemma d_get_set d k v k' : d_get (d_set d k v) k' = if eq_dec k' k then Some v else d_get d k'.
Proof.
  induction d as [|[k0 v0] d IH]; cbn.
  - reflexivity.
  - destruct (eq_dec k k0); cbn.
    + destruct (eq_dec k' k0), (eq_dec k' k); congruence.
    + rewrite IH. destruct (eq_dec k' k0), (eq_dec k' k); congruence.
Qed.

Lemma d_get_in d k : d_get d k <> None <-> In k (d_keys d).
Proof.
  induction d as [|[k0 v0] d IH]; cbn.
  - tauto.
  - destruct (eq_dec k k0); [split; [now left|discriminate]|].
    rewrite IH. split; [tauto|]. intros [?|?]; [congruence|auto].
Qed.

Lemma d_get_del d k k' : NoDup (d_keys d) ->
  d_get (d_del d k) k' = if eq_dec k' k then None else d_get d k'.
Proof.
  induction d as [|[k0 v0] d IH]; cbn; intros HN.
  - now destruct (eq_dec k' k).
  - inversion HN as [|? ? Hn HN']; subst. destruct (eq_dec k k0).
    + subst. destruct (eq_dec k' k0); auto. subst.
      destruct (d_get d k0) eqn:E; auto. exfalso. apply Hn. apply d_get_in. congruence.
    + cbn. rewrite IH by auto. destruct (eq_dec k' k0), (eq_dec k' k); congruence.
Qed.

Lemma d_keys_set d k v : d_keys (d_set d k v) =
  if in_dec eq_dec k (d_keys d) then d_keys d else d_keys d ++ [k].
Proof.
  induction d as [|[k0 v0] d IH]; [reflexivity|].
  cbn [PoolModel.d_set]. destruct (eq_dec k k0).
  - subst. destruct (in_dec eq_dec k0 (d_keys ((k0, v0) :: d))) as [|N]; [reflexivity|]. exfalso. apply N. now left.
  - cbn [d_keys map fst]. fold (d_keys (d_set d k v)). rewrite IH.
    fold (d_keys d). destruct (in_dec eq_dec k (d_keys d)), (in_dec eq_dec k (k0 :: d_keys d)); auto.
    + exfalso. apply n0. now right.
    + exfalso. destruct i; congruence.
Qed.

Lemma d_keys_del d k : NoDup (d_keys d) -> d_keys (d_del d k) = filter (fun k' => if eq_dec k' k then false else true) (d_keys d).
Proof.
  induction d as [|[k0 v0] d IH]; intros HN; [reflexivity|].
  cbn in HN. inversion HN as [|? ? Hn HN']; subst.
  cbn [PoolModel.d_del]. cbn [d_keys map fst filter]. fold (d_keys d).
  destruct (eq_dec k k0).
  - subst. destruct (eq_dec k0 k0); [|congruence].
    fold (d_keys d) in Hn. clear -Hn. induction (d_keys d) as [|a l IH]; cbn; auto.
    destruct (eq_dec a k0); [exfalso; apply Hn; now left|].
    f_equal. apply IH. intros H. apply Hn. now right.
  - destruct (eq_dec k0 k); [congruence|]. cbn. f_equal. now apply IH.
Qed.

Lemma d_in_iff d k : d_in eq_dec d k = true <-> d_get d k <> None.
Proof. unfold d_in. destruct (d_get d k); split; congruence. Qed.

(** Relation between pool and abstract map. *)
Definition Rel (p : pool K V) (m : amap (K:=K) (V:=V)) : Prop :=
  (forall k, d_get (dct p) k = val m k) /\
  StronglySorted (fun a b => (birth m a < birth m b)%nat) (d_keys (dct p)) /\
  (forall k, In k (d_keys (dct p)) -> (birth m k < now m)%nat) /\
  made p = built m.

Lemma sorted_nodup m (l : list K) : StronglySorted (fun a b => (birth (V:=V) m a < birth m b)%nat) l -> NoDup l.
Proof.
  induction 1 as [|a l H IH HF]; constructor; auto.
  rewrite Forall_forall in HF. intros Hi. specialize (HF _ Hi). lia.
Qed.

Lemma sorted_ext (R S : K -> K -> Prop) l :
  (forall a b, In a l -> In b l -> R a b -> S a b) -> StronglySorted R l -> StronglySorted S l.
Proof.
  intros H HS. induction HS as [|a l HS IH HF]; constructor.
  - apply IH. intros. apply H; auto; now right.
  - rewrite Forall_forall in *. intros b Hb. apply H; [now left|now right|auto].
Qed.

Lemma sorted_snoc (R : K -> K -> Prop) l x :
  StronglySorted R l -> (forall a, In a l -> R a x) -> StronglySorted R (l ++ [x]).
Proof.
  induction 1 as [|a l HS IH HF]; intros H; cbn.
  - repeat constructor.
  - constructor.
    + apply IH. intros. apply H. now right.
    + apply Forall_app. split; auto. constructor; [|constructor]. apply H. now left.
Qed.

Lemma sorted_filter (R : K -> K -> Prop) f l : StronglySorted R l -> StronglySorted R (filter f l).
Proof.
  induction 1 as [|a l HS IH HF]; cbn; [constructor|].
  destruct (f a); auto. constructor; auto.
  rewrite Forall_forall in *. intros b Hb. apply filter_In in Hb. apply HF. tauto.
Qed.

Lemma rel_put p m k v b q : Rel p m -> Rel (Pool (d_set (dct p) k v) q b) (put eq_dec m k v b).
Proof.
  intros (H1 & H2 & H3 & H4). unfold Rel, put. cbn [dct made val birth now built].
  assert (HIn : In k (d_keys (dct p)) <-> val m k <> None).
  { rewrite <- H1. symmetry. apply d_get_in. }
  split; [|split; [|split]]; auto.
  - intros k'. rewrite d_get_set. now rewrite H1.
  - rewrite d_keys_set. destruct (in_dec eq_dec k (d_keys (dct p))) as [i|n].
    + apply sorted_ext with (R := fun a b => (birth m a < birth m b)%nat); auto.
      intros a b0 Ha Hb Hlt. destruct (val m k) eqn:E; [|tauto].
      destruct (eq_dec a k), (eq_dec b0 k); subst; auto.
    + assert (E : val m k = None) by (destruct (val m k); auto; exfalso; apply n, HIn; congruence).
      rewrite E. apply sorted_snoc.
      * apply sorted_ext with (R := fun a b => (birth m a < birth m b)%nat); auto.
        intros a b0 Ha Hb Hlt. destruct (eq_dec a k), (eq_dec b0 k); subst; tauto.
      * intros a Ha. destruct (eq_dec a k); [subst; tauto|].
        destruct (eq_dec k k); [|congruence]. now apply H3.
  - intros k' Hk'. rewrite d_keys_set in Hk'.
    destruct (in_dec eq_dec k (d_keys (dct p))) as [i|n].
    + destruct (eq_dec k' k).
      * subst. destruct (val m k); [specialize (H3 _ i); lia|lia].
      * specialize (H3 _ Hk'). lia.
    + destruct (eq_dec k' k).
      * destruct (val m k) eqn:E; [|lia]. exfalso. apply n, HIn. congruence.
      * apply in_app_iff in Hk'. destruct Hk' as [Hk'|[Hk'|[]]]; [|congruence].
        specialize (H3 _ Hk'). lia.
Qed.

Lemma rel_keep p m q : Rel p m -> Rel (Pool (dct p) q (made p)) (drop m (fun _ => false)).
Proof.
  intros (H1 & H2 & H3 & H4). unfold Rel, drop; cbn [dct made val birth now built]. repeat split; auto.
  intros k Hk. specialize (H3 k Hk). lia.
Qed.

Lemma pool_eta p : p = Pool (dct p) (ptr p) (made p). Proof. now destruct p. Qed.

Lemma rel_step T p m o : Rel p m -> Rel (fst (pstep eq_dec T p o)) (astep eq_dec T m o).
Proof.
  intros HR. pose proof HR as (H1 & H2 & H3 & H4).
  destruct o; cbn [pstep astep].
  - (* get *) unfold p_get, d_in. rewrite H1. destruct (val m k) eqn:E; cbn [fst].
    + rewrite (pool_eta p). now apply rel_keep.
    + destruct T as [mk|]; cbn [fst].
      * rewrite <- H4. now apply rel_put.
      * rewrite (pool_eta p). now apply rel_keep.
  - cbn. unfold p_add. rewrite H4. now apply rel_put.
  - cbn. rewrite (pool_eta p). now apply rel_keep.
  - cbn. destruct k as [k|]; cbn.
    + assert (D : Rel (Pool (d_del (dct p) k) (ptr p) (made p))
                      (drop m (fun k' => if eq_dec k' k then true else false))).
      { pose proof (sorted_nodup m _ H2) as HN. unfold Rel, drop; cbn [dct made val birth now built]. split; [|split; [|split]]; auto.
        - intros k'. rewrite d_get_del by auto. destruct (eq_dec k' k); auto.
        - rewrite d_keys_del by auto. now apply sorted_filter.
        - intros k' Hk'. rewrite d_keys_del in Hk' by auto. apply filter_In in Hk'.
          destruct Hk' as [Hk' _]. specialize (H3 _ Hk'). lia. }
      destruct (d_in eq_dec (dct p) k) eqn:E; auto.
      unfold d_in in E. rewrite H1 in E. unfold Rel, drop; cbn [dct made val birth now built]. split; [|split; [|split]]; auto.
      intros k'. rewrite H1. destruct (eq_dec k' k); auto. subst. now destruct (val m k).
      intros k' Hk'. specialize (H3 _ Hk'). lia.
    + unfold Rel, drop; cbn [dct made val birth now built]. repeat split; auto. constructor. intros ? [].
  - cbn. rewrite (pool_eta p). now apply rel_keep.
  - cbn. unfold p_last. destruct (0 <? p_num p); cbn [fst];
      [now apply rel_keep|rewrite (pool_eta p); now apply rel_keep].
  - cbn. unfold p_first. destruct (d_keys (dct p)); cbn [fst]; [rewrite (pool_eta p)|]; now apply rel_keep.
  - cbn. rewrite (pool_eta p). now apply rel_keep.
  - cbn. unfold p_next. destruct (p_has_next p); cbn [fst];
      [now apply rel_keep|rewrite (pool_eta p); now apply rel_keep].
  - cbn. rewrite (pool_eta p). now apply rel_keep.
  - cbn. unfold p_prev. destruct (p_has_prev p); cbn [fst];
      [now apply rel_keep|rewrite (pool_eta p); now apply rel_keep].
  - cbn. rewrite (pool_eta p). now apply rel_keep.
Qed.

Lemma rel_run T os : Rel (fst (prun eq_dec T os)) (arun eq_dec T os).
Proof.
  unfold prun, arun.
  assert (H : Rel pool0 (amap0 (K:=K) (V:=V))).
  { unfold Rel; cbn. repeat split; auto. constructor. intros ? []. }
  revert H. generalize (@pool0 K V) (amap0 (K:=K) (V:=V)).
  induction os as [|o os IH]; intros p m H; cbn [run_machine fold_left]; auto.
  pose proof (rel_step T p m o H) as H'. destruct (pstep eq_dec T p o) as [p1 o1]. cbn [fst] in H'.
  specialize (IH _ _ H'). now destruct (run_machine (pstep eq_dec T) p1 os).
Qed.

(** Results of the look-ups in a reached state. *)
Lemma results_ok T p m k : Rel p m ->
  snd (pstep eq_dec T p (PExists k)) = [PBool (match val m k with Some _ => true | None => false end)] /\
  snd (pstep eq_dec T p (PGetItem k)) = [match val m k with Some v => PVal v | None => PRaise end] /\
  snd (pstep eq_dec T p (PGet k)) =
    [match val m k, T with Some v, _ => PVal v | None, Some mk => PVal (mk (built m)) | None, None => PNone end].
Proof.
  intros (H1 & H2 & H3 & H4). cbn. unfold p_exists, p_getitem, p_get, d_in. rewrite H1.
  destruct (val m k) eqn:E; repeat split; auto.
  - destruct T as [mk|]; cbn; auto. rewrite d_get_set, H4. destruct (eq_dec k k); congruence.
Qed.

Lemma keys_ok p m : Rel p m ->
  NoDup (d_keys (dct p)) /\ (forall k, In k (d_keys (dct p)) <-> val m k <> None) /\
  p_num p = Z.of_nat (length (d_keys (dct p))).
Proof.
  intros (H1 & H2 & H3 & H4). split; [eapply sorted_nodup; eauto|]. split; auto.
  intros k. rewrite <- H1. symmetry. apply d_get_in.
Qed.

(** Iteration *)
Lemma next_loop_ok d q b : forall fuel n, (n <= length d)%nat -> (n <= fuel)%nat ->
  q = zlen d - 1 - Z.of_nat n -> -1 <= q ->
  next_loop (S fuel) (Pool d q b) =
   Some (Pool d (zlen d - 1) b, map PKey (skipn (length d - n) (d_keys d))).
Proof.
  intros fuel n. revert q fuel. induction n as [|n IH]; intros q fuel Hn Hf Hq Hm; cbn [next_loop].
  - unfold p_has_next, p_num. cbn [dct ptr]. unfold d_keys, zlen. rewrite map_length.
    unfold zlen in Hq. replace (q <? _) with false by lia.
    rewrite Nat.sub_0_r. rewrite skipn_all2 by (rewrite map_length; lia). cbn. repeat f_equal. lia.
  - destruct fuel as [|fuel]; [lia|].
    unfold p_next. unfold p_has_next, p_num. cbn [dct ptr made].
    assert (L : zlen (d_keys d) = zlen d) by (unfold d_keys, zlen; now rewrite map_length).
    rewrite L. replace (q <? zlen d - 1) with true by lia.
    rewrite (IH (q + 1)) by lia. f_equal. f_equal.
    unfold py_get. rewrite py_pos_nonneg by lia. rewrite L. replace (q + 1 <? zlen d) with true by lia.
    replace (Z.to_nat (q + 1)) with (length d - S n)%nat by (unfold zlen in *; lia).
    assert (HL : (length d - S n < length (d_keys d))%nat) by (unfold d_keys; rewrite map_length; lia).
    destruct (nth_error (d_keys d) (length d - S n)) as [k|] eqn:E.
    + replace (length d - n)%nat with (S (length d - S n)) by lia.
      clear -E. revert E. generalize (length d - S n)%nat as i. generalize (d_keys d).
      induction l as [|a l IHl]; intros [|i] E; try discriminate.
      * now injection E as ->.
      * cbn [skipn]. cbn in E. rewrite <- (IHl _ E). reflexivity.
    + apply nth_error_None in E. lia.
Qed.

Lemma zlen_keys d : zlen (d_keys d) = zlen d.
Proof. unfold d_keys, zlen. now rewrite map_length. Qed.

Lemma iterate_ok p : iterate (S (length (dct p))) p = Some (map PKey (d_keys (dct p))).
Proof.
  unfold iterate, p_has_first, p_first, p_num. rewrite zlen_keys.
  destruct p as [d q b]. cbn [dct made]. destruct d as [|[k v] d]; [reflexivity|].
  replace (0 <? _) with true by (unfold zlen; cbn; lia).
  cbn [d_keys map fst].
  rewrite next_loop_ok with (n := length d); cbn [length]; try lia.
  - replace (S (length d) - length d)%nat with 1%nat by lia. reflexivity.
  - unfold zlen. cbn [length]. lia.
Qed.

Lemma prev_loop_ok d b : forall n fuel, (n < length d)%nat -> (n <= fuel)%nat ->
  prev_loop (S fuel) (Pool d (Z.of_nat n) b) =
   Some (Pool d 0 b, map PKey (rev (firstn n (d_keys d)))).
Proof.
  induction n as [|n IH]; intros fuel Hn Hf.
  - reflexivity.
  - cbn [prev_loop]. destruct fuel as [|fuel]; [lia|].
    unfold p_prev, p_has_prev. cbn [ptr dct made].
    replace (0 <? Z.of_nat (S n)) with true by lia.
    replace (Z.of_nat (S n) - 1) with (Z.of_nat n) by lia.
    rewrite (IH fuel) by lia. f_equal. f_equal.
    unfold py_get. rewrite py_pos_nonneg by lia. rewrite zlen_keys.
    replace (Z.of_nat n <? zlen d) with true by (unfold zlen; lia). rewrite Nat2Z.id.
    assert (HL : (n < length (d_keys d))%nat) by (unfold d_keys; rewrite map_length; lia).
    destruct (nth_error (d_keys d) n) as [k|] eqn:E.
    + assert (firstn (S n) (d_keys d) = firstn n (d_keys d) ++ [k]) as ->.
      { clear -E. revert n E. induction (d_keys d) as [|a l IH]; intros [|n] E; try discriminate.
        - now injection E as ->.
        - cbn in E. cbn [firstn app]. f_equal. now apply IH. }
      rewrite rev_app_distr. reflexivity.
    + apply nth_error_None in E. lia.
Qed.

Lemma iterate_back_ok p : iterate_back (S (length (dct p))) p = Some (map PKey (rev (d_keys (dct p)))).
Proof.
  unfold iterate_back, p_has_first, p_last, p_num. rewrite zlen_keys.
  destruct p as [d q b]. cbn [dct made].
  destruct (0 <? zlen d) eqn:E.
  - assert (Hd : (0 < length d)%nat) by (unfold zlen in E; lia).
    replace (zlen d - 1) with (Z.of_nat (length d - 1)) by (unfold zlen; lia).
    rewrite prev_loop_ok by lia.
    assert (Hl : length (d_keys d) = length d) by (unfold d_keys; now rewrite map_length).
    assert (exists l k, d_keys d = l ++ [k] /\ length l = (length d - 1)%nat) as (l & k & -> & Hl').
    { destruct (exists_last (l := d_keys d)) as (l & k & Hlk).
      - intros H. rewrite H in Hl. cbn in Hl. lia.
      - exists l, k. split; auto. rewrite Hlk, app_length in Hl. cbn in Hl. lia. }
    rewrite rev_app_distr. cbn [rev app map].
    rewrite <- Hl', firstn_app, Nat.sub_diag, firstn_all. cbn [firstn]. rewrite app_nil_r. reflexivity.
  - assert (d = []) as -> by (destruct d; auto; unfold zlen in E; cbn in E; lia). reflexivity.
Qed.

(** Invariant of the pointer: -1 <= ptr, so next() never raises. *)
Lemma ptr_run (T : option (nat -> V)) os : -1 <= ptr (fst (prun eq_dec T os)).
Proof.
  unfold prun.
  refine (run_machine_inv (pstep eq_dec T) (fun p _ => -1 <= ptr p) _ os pool0 [] _); [|cbn; lia].
  clear os. intros p _ o HP. destruct o; cbn [pstep]; auto.
  - unfold p_get. destruct (d_in _ _ _); auto. now destruct T.
  - cbn. unfold p_delete. destruct k; auto. now destruct (d_in _ _ _).
  - unfold p_last, p_num, zlen. destruct (0 <? _) eqn:E; cbn; lia.
  - unfold p_first. destruct (d_keys _); cbn; lia.
  - unfold p_next. destruct (p_has_next _); cbn; lia.
  - unfold p_prev, p_has_prev. destruct (0 <? _) eqn:E; cbn; lia.
Qed.

Lemma next_no_raise p : -1 <= ptr p -> snd (p_next p) <> PRaise.
Proof.
  intros H. unfold p_next, p_has_next, p_num. cbn [ptr]. rewrite zlen_keys.
  destruct (_ <? _) eqn:E; [|discriminate]. cbn [snd].
  unfold py_get. rewrite py_pos_nonneg by lia. rewrite zlen_keys.
  replace (_ <? _) with true by lia.
  destruct (nth_error _ _) eqn:E2; [discriminate|].
  apply nth_error_None in E2. unfold d_keys in E2. rewrite map_length in E2. unfold zlen in E. lia.
Qed.

Lemma s_delete_diverges p k : d_get (dct p) k <> None -> forall fuel, s_delete eq_dec fuel p k = None.
Proof.
  intros H. apply d_in_iff in H. induction fuel; cbn; auto. unfold p_exists. now rewrite H.
Qed.

Lemma s_get_ok mk p k :
  let r := s_get eq_dec mk p k in
  snd r = PVal (match d_get (dct p) k with Some v => v | None => mk (made p) k end) /\
  forall k', d_get (dct (fst r)) k' =
    if eq_dec k' k then Some (match d_get (dct p) k with Some v => v | None => mk (made p) k end)
    else d_get (dct p) k'.
Proof.
  unfold s_get, d_in. destruct (d_get (dct p) k) eqn:E; cbn.
  - rewrite E. split; auto. intros k'. destruct (eq_dec k' k); congruence.
  - rewrite d_get_set. destruct (eq_dec k k); [|congruence]. split; auto.
    intros k'. now rewrite d_get_set.
Qed.

End Proofs.
