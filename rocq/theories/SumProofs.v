From Coq Require Import ZArith List Bool Arith String Lia.
From Verif Require Import Prelude PyList PoolModel PoolProofs PoolProps SumModel SumSpec.
Import ListNotations.
Open Scope Z_scope.

Lemma firsts_in {A} (l d : list A) : firsts l d -> forall x, In x d <-> In x l.
Proof.
  induction 1 as [|l d x H IH N|l d x H IH N]; intros y; [tauto| |].
  - rewrite !in_app_iff, IH. tauto.
  - rewrite in_app_iff, IH. cbn. intuition (subst; auto).
Qed.
Lemma firsts_nodup {A} (l d : list A) : firsts l d -> NoDup d.
Proof.
  induction 1 as [|l d x H IH N|l d x H IH N]; auto; [constructor|].
  apply NoDup_rev in IH. rewrite <- (rev_involutive (d ++ [x])). apply NoDup_rev.
  rewrite rev_app_distr. cbn. constructor; auto. rewrite <- in_rev, (firsts_in _ _ H). exact N.
Qed.

Lemma NoDup_app_r {A} (a b : list A) : NoDup (a ++ b) -> NoDup b.
Proof. induction a as [|x a IH]; cbn; auto. intros H. inversion H; auto. Qed.

Section T.
Context {K : Type} (dec : forall a b : K, {a = b} + {a <> b}).
Notation tab := (pool K Z).
Record tabrel (names : list K) (c : K -> Z) (p : tab) : Prop := TR {
  tr_keys : firsts names (d_keys (dct p));
  tr_get : forall k, d_get dec (dct p) k = if in_dec dec k names then Some (c k) else None;
  tr_zero : forall k, ~ In k names -> c k = 0;
  tr_ptr : -1 <= ptr p <= zlen (dct p) - 1
}.
Lemma zlen_set (d : dict K Z) k v : zlen d <= zlen (d_set dec d k v).
Proof.
  unfold zlen. induction d as [|[k' v'] d IH]; cbn [d_set List.length]; [lia|].
  destruct (dec k k'); cbn [List.length]; lia.
Qed.
Lemma tr_add names c p k v c' : tabrel names c p -> c' k = v -> (forall k', k' <> k -> c' k' = c k') ->
  tabrel (names ++ [k]) c' (p_add dec p k v).
Proof.
  intros [H1 H2 H3 H4] Ek Eo. constructor; cbn [p_add dct ptr].
  - rewrite d_keys_set. destruct (in_dec dec k (d_keys (dct p))) as [I|I]; rewrite (firsts_in _ _ H1) in I; constructor; auto.
  - intros k'. rewrite d_get_set. destruct (dec k' k) as [->|N].
    + destruct (in_dec dec k (names ++ [k])) as [_|X]; [now rewrite Ek|]. destruct X. apply in_or_app. right. now left.
    + rewrite H2. rewrite (Eo _ N). destruct (in_dec dec k' names) as [I|I], (in_dec dec k' (names ++ [k])) as [J|J]; auto.
      * destruct J. apply in_or_app. now left.
      * apply in_app_or in J as [J|[J|[]]]; [now destruct I|congruence].
  - intros k' N. rewrite Eo; [apply H3|]; intros X; apply N, in_or_app; [now left|subst; right; now left].
  - pose proof (zlen_set (dct p) k v). lia.
Qed.
Lemma tr_add_old names c p k v c' : tabrel names c p -> In k names -> c' k = v -> (forall k', k' <> k -> c' k' = c k') ->
  tabrel names c' (p_add dec p k v).
Proof.
  intros [H1 H2 H3 H4] I Ek Eo. constructor; cbn [p_add dct ptr].
  - rewrite d_keys_set. destruct (in_dec dec k (d_keys (dct p))) as [J|J]; [exact H1|].
    destruct J. now apply (firsts_in _ _ H1).
  - intros k'. rewrite d_get_set. destruct (dec k' k) as [->|N].
    + destruct (in_dec dec k names); [now rewrite Ek|tauto].
    + rewrite H2, (Eo _ N). reflexivity.
  - intros k' N. rewrite Eo; [now apply H3|]. intros ->. tauto.
  - pose proof (zlen_set (dct p) k v). lia.
Qed.
Lemma tr_incr names c p k c' : tabrel names c p -> c' k = c k + 1 -> (forall k', k' <> k -> c' k' = c k') ->
  tabrel (names ++ [k]) c' (incr dec p k).
Proof.
  intros H Ek Eo. pose proof H as [H1 H2 H3 H4]. unfold incr, p_exists, p_get, d_in. rewrite (H2 k).
  destruct (in_dec dec k names) as [I|I].
  - apply tr_add with c; auto.
  - apply tr_add with c; auto. rewrite Ek, H3; auto.
Qed.
Lemma tr_set names c p k n c' : tabrel names c p -> c' k = Z.max 0 n -> (forall k', k' <> k -> c' k' = c k') ->
  tabrel (names ++ [k]) c' (set_count dec p k n).
Proof.
  intros H Ek Eo. unfold set_count. apply tr_add with c; auto. rewrite Ek. destruct (Z.ltb_spec n 0); lia.
Qed.
Lemma tr_ext names c c' p : tabrel names c p -> (forall k, c' k = c k) -> tabrel names c' p.
Proof.
  intros [H1 H2 H3 H4] E. constructor; auto.
  - intros k. rewrite H2, E. reflexivity.
  - intros k N. rewrite E. auto.
Qed.
Lemma take_ok names c p : tabrel names c p ->
  take p = (Pool (dct p) (zlen (dct p) - 1) (made p), map PKey (skipn (Z.to_nat (ptr p + 1)) (d_keys (dct p)))).
Proof.
  intros [H1 H2 H3 H4]. destruct p as [d pos b]. cbn [dct ptr made] in *.
  pose proof (C70_print_rest K Z dec d pos b H4) as E. unfold do_print in E. unfold take. cbn [dct]. now rewrite E.
Qed.
Lemma tr_move names c p q : tabrel names c p -> -1 <= q <= zlen (dct p) - 1 -> tabrel names c (Pool (dct p) q (made p)).
Proof. intros [H1 H2 H3 H4] Hq. constructor; auto. Qed.
Lemma get_count_ok names c p k : tabrel names c p -> get_count dec p k = PVal (c k).
Proof.
  intros [H1 H2 H3 H4]. unfold get_count, p_exists, d_in, p_get, d_in. rewrite !(H2 k).
  destruct (in_dec dec k names) as [I|I]; [reflexivity|now rewrite H3].
Qed.
Lemma lines_ok names c p : tabrel names c p -> lines dec p = map (fun k => (k, PVal (c k))) (d_keys (dct p)).
Proof.
  intros [H1 H2 H3 H4]. unfold lines. apply map_ext_in. intros k I. apply (firsts_in _ _ H1) in I.
  unfold p_get, d_in. rewrite (H2 k). destruct (in_dec dec k names); [|tauto]. reflexivity.
Qed.
Lemma print_loop_ok names c d b : forall fuel pos, (forall q, -1 <= q <= zlen d - 1 -> tabrel names c (Pool d q b)) ->
  forall k, 0 <= pos -> (fuel = List.length d - Z.to_nat pos)%nat -> pos <= zlen d - 1 ->
  nth_error (d_keys d) (Z.to_nat pos) = Some k ->
  print_loop dec fuel (Pool d pos b) (PKey k) =
    (Pool d (zlen d - 1) b, map (fun k => (PKey k, PVal (c k))) (skipn (Z.to_nat pos) (d_keys d))).
Proof.
  induction fuel as [|fuel IH]; intros pos HR k P0 F P1 E.
  - exfalso. unfold zlen in P1. lia.
  - assert (Hs : skipn (Z.to_nat pos) (d_keys d) = k :: skipn (Z.to_nat (pos + 1)) (d_keys d)).
    { replace (Z.to_nat (pos + 1)) with (S (Z.to_nat pos)) by lia. revert E. generalize (Z.to_nat pos) (d_keys d).
      induction n as [|n IHn]; intros [|x l] E; try discriminate; cbn in E |- *; [now injection E as ->|now apply IHn]. }
    rewrite Hs. cbn [print_loop].
    assert (Hg : p_getitem dec (Pool d pos b) k = PVal (c k)).
    { destruct (HR pos ltac:(lia)) as [H1 H2 H3 H4]. unfold p_getitem, d_in. rewrite (H2 k).
      destruct (in_dec dec k names) as [_|X]; auto. destruct X. apply (firsts_in _ _ H1). cbn [dct]. eapply nth_error_In; eauto. }
    rewrite Hg. unfold p_has_next, p_num. cbn [dct ptr]. rewrite zlen_keys.
    destruct (Z.ltb_spec pos (zlen d - 1)) as [L|L].
    + unfold p_next, p_has_next, p_num. cbn [dct ptr made]. rewrite zlen_keys.
      destruct (Z.ltb_spec pos (zlen d - 1)) as [_|X]; [|lia].
      assert (exists k1, py_get (d_keys d) (pos + 1) = Some k1 /\ nth_error (d_keys d) (Z.to_nat (pos + 1)) = Some k1) as (k1 & E1 & E2).
      { destruct (nth_error (d_keys d) (Z.to_nat (pos + 1))) as [k1|] eqn:N.
        - exists k1. split; auto. unfold py_get, py_pos. rewrite zlen_keys. unfold zlen in *.
          destruct (Z.ltb_spec (pos + 1) 0); [lia|].
          try (destruct (Z.leb_spec 0 (pos + 1)); [|lia]).
          destruct (Z.ltb_spec (pos + 1) (Z.of_nat (List.length d))); [|lia]. exact N.
        - apply nth_error_None in N. unfold d_keys in N. rewrite map_length in N. unfold zlen in *. lia. }
      rewrite E1. rewrite (IH (pos + 1) HR k1); auto; try lia. 
    + assert (pos = zlen d - 1) as -> by lia. f_equal. cbn [map]. f_equal. rewrite skipn_all2; auto.
      unfold d_keys. rewrite map_length. unfold zlen. lia.
Qed.
Lemma print_ok names c p : tabrel names c p ->
  exists q, -1 <= q <= zlen (dct p) - 1 /\ ptr p <= q /\
  print_tab dec p = (Pool (dct p) q (made p), map (fun k => (PKey k, PVal (c k))) (d_keys (dct p))).
Proof.
  intros H. destruct p as [d pos b]. assert (HR : forall q, -1 <= q <= zlen d - 1 -> tabrel names c (Pool d q b)).
  { intros q Hq. exact (tr_move _ _ _ q H Hq). }
  destruct H as [H1 H2 H3 H4]. cbn [dct ptr made] in *. unfold print_tab, p_has_first, p_num, p_first. cbn [dct ptr made].
  rewrite zlen_keys. destruct (Z.ltb_spec 0 (zlen d)) as [L|L].
  - destruct (d_keys d) as [|k l] eqn:E.
    + exfalso. apply (f_equal (@List.length _)) in E. unfold d_keys in E. rewrite map_length in E. unfold zlen in L. cbn in E. lia.
    + exists (zlen d - 1). split; [lia|]. split; [lia|]. rewrite (print_loop_ok names c d b (List.length d) 0 HR k); try lia; rewrite E; auto.
  - exists pos. split; [lia|]. split; [lia|]. destruct d; [reflexivity|]. exfalso. unfold zlen in L. cbn in L. lia.
Qed.

(** What was handed out. *)
Record gaverel (np : Prop) (p : tab) (g : list (pres K Z)) : Prop := GR {
  gr_set : exists D, g = map PKey D /\ NoDup D /\ incl D (firstn (Z.to_nat (ptr p + 1)) (d_keys (dct p))) /\
    (np -> D = firstn (Z.to_nat (ptr p + 1)) (d_keys (dct p)))
}.
Lemma firstn_snoc {A} n (l : list A) x : (n <= List.length l)%nat -> firstn n (l ++ [x]) = firstn n l.
Proof. intros L. rewrite firstn_app. replace (n - List.length l)%nat with 0%nat by lia. cbn. now rewrite app_nil_r. Qed.
Lemma gr_add np p g k v : -1 <= ptr p <= zlen (dct p) - 1 -> gaverel np p g -> gaverel np (p_add dec p k v) g.
Proof.
  intros Hp [(D & E & N & I & Q)]. assert (Hf : firstn (Z.to_nat (ptr p + 1)) (d_keys (d_set dec (dct p) k v)) = firstn (Z.to_nat (ptr p + 1)) (d_keys (dct p))).
  { rewrite d_keys_set. destruct (in_dec dec k (d_keys (dct p))); auto. apply firstn_snoc.
    unfold d_keys. rewrite map_length. unfold zlen in Hp. lia. }
  constructor. exists D. cbn [p_add dct ptr]. rewrite Hf. auto.
Qed.
Lemma gr_incr np names c p g k : tabrel names c p -> gaverel np p g -> gaverel np (incr dec p k) g.
Proof.
  intros [H1 H2 H3 H4] G. unfold incr, p_exists, p_get, d_in. rewrite (H2 k).
  destruct (in_dec dec k names); apply gr_add; auto.
Qed.
Lemma gr_take np names c p g : tabrel names c p -> gaverel np p g -> gaverel np (fst (take p)) (g ++ snd (take p)).
Proof.
  intros H [(D & E & N & I & Q)]. rewrite (take_ok _ _ _ H). destruct H as [H1 H2 H3 H4]. cbn [fst snd].
  assert (Ha : firstn (Z.to_nat (zlen (dct p) - 1 + 1)) (d_keys (dct p)) = d_keys (dct p)).
  { apply firstn_all2. unfold d_keys, zlen. rewrite map_length. lia. }
  constructor. exists (D ++ skipn (Z.to_nat (ptr p + 1)) (d_keys (dct p))). cbn [dct ptr]. rewrite Ha.
  set (n := Z.to_nat (ptr p + 1)) in *. pose proof (firstn_skipn n (d_keys (dct p))) as FS.
  assert (ND : NoDup (d_keys (dct p))) by (eapply firsts_nodup; eauto).
  repeat split.
  - now rewrite E, map_app.
  - rewrite <- FS in ND. clear -N I ND. induction D as [|x D IH]; cbn.
    + apply NoDup_app_r in ND. exact ND.
    + inversion N as [|? ? Nx N']; subst. constructor; [|apply IH; auto; intros y Y; apply I; now right].
      rewrite in_app_iff. intros [X|X]; [tauto|]. specialize (I x (or_introl eq_refl)).
      clear -I X ND. induction (firstn n (d_keys (dct p))) as [|y l IH]; [tauto|]. inversion ND as [|? ? Ny ND']; subst.
      destruct I as [->|I]; [|auto]. apply Ny, in_or_app. now right.
  - intros x X. apply in_app_or in X as [X|X].
    + apply I in X. rewrite <- FS. apply in_or_app. now left.
    + rewrite <- FS. apply in_or_app. now right.
  - intros P. now rewrite (Q P).
Qed.
Lemma gr_move (np : Prop) p g q : gaverel np p g -> ptr p <= q -> gaverel False (Pool (dct p) q (made p)) g.
Proof.
  intros [(D & E & N & I & Q)] L. constructor. exists D. cbn [dct ptr]. repeat split; auto; [|tauto].
  intros x X. apply I in X. clear -X L. assert (M : (Z.to_nat (ptr p + 1) <= Z.to_nat (q + 1))%nat) by lia.
  revert X M. generalize (Z.to_nat (ptr p + 1)) (Z.to_nat (q + 1)) (d_keys (dct p)).
  induction n as [|n IH]; intros [|m] [|y l] X M; cbn in *; try tauto; try lia. destruct X as [X|X]; [now left|right].
  apply (IH m l); auto; lia.
Qed.
Lemma gr_weak (np np' : Prop) p g : gaverel np p g -> (np' -> np) -> gaverel np' p g.
Proof. intros [(D & E & N & I & Q)] W. constructor. exists D. repeat split; auto. Qed.
End T.

(** ** the server *)
Lemma sev_names_app a b : sev_names (a ++ b) = sev_names a ++ flat_map (fun f => match f with FMsg s _ _ => [s] | FSetSev s _ => [s] | _ => [] end) b.
Proof. unfold sev_names. now rewrite flat_map_app, app_assoc. Qed.
Lemma id_names_app a b : id_names (a ++ b) = id_names a ++ flat_map (fun f => match f with FMsg _ i _ => [i] | FSetId i _ => [i] | _ => [] end) b.
Proof. unfold id_names. now rewrite flat_map_app. Qed.
Lemma max_from a : forall m b, fold_left (fun n f => match f with FSetMax m => Z.max 0 m | _ => n end) (a ++ b) m =
  fold_left (fun n f => match f with FSetMax m => Z.max 0 m | _ => n end) b (fold_left (fun n f => match f with FSetMax m => Z.max 0 m | _ => n end) a m).
Proof. intros m b. apply fold_left_app. Qed.
Lemma quit_from a : forall m q b, quit_num m q (a ++ b) =
  quit_num (fold_left (fun n f => match f with FSetMax m => Z.max 0 m | _ => n end) a m) (quit_num m q a) b.
Proof.
  induction a as [|f a IH]; intros m q b; [reflexivity|]. destruct f as [s i [|]| | | | |]; cbn [app quit_num fold_left]; apply IH.
Qed.
Lemma facts_app a : forall v b, facts v (a ++ b) = facts v a ++ facts (fold_left verb_after a v) b.
Proof. induction a as [|o a IH]; intros v b; [reflexivity|]. cbn [app facts fold_left]. now rewrite IH, app_assoc. Qed.

Record srel (fs : list fact) (s : srv) : Prop := SR {
  sr_max : maxq s = max_num fs;
  sr_quit : quit s = quit_num 0 0 fs;
  sr_sev : tabrel Nat.eq_dec (sev_names fs) (fun k => sev_num k fs) (sevs s);
  sr_id : tabrel string_dec (id_names fs) (fun k => id_num k fs) (ids s)
}.
Lemma clip_max n : (if n <? 0 then 0 else n) = Z.max 0 n.
Proof. destruct (Z.ltb_spec n 0); lia. Qed.
Lemma sev_snoc k fs f : sev_num k (fs ++ [f]) = match f with
    | FMsg s' _ _ => if Nat.eqb k s' then sev_num k fs + 1 else sev_num k fs
    | FSetSev s' m => if Nat.eqb k s' then Z.max 0 m else sev_num k fs
    | FReset => if Nat.ltb k 4 then 0 else sev_num k fs
    | _ => sev_num k fs end.
Proof. unfold sev_num. now rewrite fold_left_app. Qed.
Lemma id_snoc k fs f : id_num k (fs ++ [f]) = match f with
    | FMsg _ s' _ => if String.eqb k s' then id_num k fs + 1 else id_num k fs
    | FSetId s' m => if String.eqb k s' then Z.max 0 m else id_num k fs
    | _ => id_num k fs end.
Proof. unfold id_num. now rewrite fold_left_app. Qed.

Lemma sr_msg fs s sev id c shown : srel fs s -> shown && show_verb s = false ->
  srel (fs ++ [FMsg sev id c]) (fst (report s sev id shown c)) /\ snd (report s sev id shown c) = [].
Proof.
  intros [H1 H2 H3 H4] V. unfold report. rewrite V. cbn [fst snd]. split; auto. constructor; cbn [maxq quit sevs ids].
  - unfold max_num. rewrite fold_left_app. exact H1.
  - rewrite quit_from. fold (max_num fs). rewrite <- H1, <- H2. destruct c; cbn; [|reflexivity]. now destruct (maxq s =? 0).
  - rewrite sev_names_app. cbn [flat_map app]. eapply tr_incr; eauto; cbn beta.
    + rewrite sev_snoc, Nat.eqb_refl. reflexivity.
    + intros k N. rewrite sev_snoc. apply Nat.eqb_neq in N. now rewrite N.
  - rewrite id_names_app. cbn [flat_map app]. eapply tr_incr; eauto; cbn beta.
    + rewrite id_snoc, String.eqb_refl. reflexivity.
    + intros k N. rewrite id_snoc. apply String.eqb_neq in N. now rewrite N.
Qed.
Lemma tr_resets fs p : tabrel Nat.eq_dec (sev_names fs) (fun k => sev_num k fs) p ->
  tabrel Nat.eq_dec (sev_names (fs ++ [FReset])) (fun k => sev_num k (fs ++ [FReset])) (reset_sevs p).
Proof.
  intros H. rewrite sev_names_app. cbn [flat_map]. rewrite app_nil_r. unfold reset_sevs, levels. cbn [fold_left].
  assert (A : forall l c q, tabrel Nat.eq_dec (sev_names fs) c q -> incl l [0;1;2;3]%nat ->
     tabrel Nat.eq_dec (sev_names fs) (fun k => if in_dec Nat.eq_dec k l then 0 else c k) (fold_left (fun p s => p_add Nat.eq_dec p s 0) l q)).
  { induction l as [|x l IH]; intros c q HR I; cbn [fold_left].
    - eapply tr_ext; eauto.
    - eapply tr_ext; [apply (IH (fun k => if Nat.eq_dec k x then 0 else c k))|].
      + eapply tr_add_old; eauto.
        * unfold sev_names. apply in_or_app. left. apply I. now left.
        * cbn beta. destruct (Nat.eq_dec x x); congruence.
        * intros k N. cbn beta. destruct (Nat.eq_dec k x); congruence.
      + intros y Y. apply I. now right.
      + intros k. cbn beta. destruct (in_dec Nat.eq_dec k (x :: l)) as [J|J], (in_dec Nat.eq_dec k l) as [J'|J']; auto.
        * destruct J as [<-|J]; [|tauto]. destruct (Nat.eq_dec x x); congruence.
        * destruct J. now right.
        * destruct (Nat.eq_dec k x) as [->|]; auto. destruct J. now left. }
  eapply tr_ext; [exact (A [0;1;2;3]%nat _ _ H (incl_refl _))|].
  intros k. cbn beta. rewrite sev_snoc. destruct (in_dec Nat.eq_dec k [0; 1; 2; 3]%nat) as [I|I].
  - repeat destruct I as [<-|I]; try reflexivity. destruct I.
  - destruct (Nat.ltb_spec k 4) as [L|L]; auto. destruct I. cbn. lia.
Qed.
Lemma sr_init : srel [] srv0.
Proof.
  constructor; auto.
  - unfold srv0. cbn [sevs]. constructor.
    + change [] with (@nil fact). unfold sev_names. cbn [flat_map app].
      change (d_keys (dct (reset_sevs pool0))) with [0;1;2;3]%nat.
      assert (A : forall l : list nat, NoDup l -> firsts l l).
      { induction l as [|x l IH] using rev_ind; [constructor|]. intros N. constructor.
        - apply IH. apply NoDup_remove_1 in N. now rewrite app_nil_r in N.
        - apply NoDup_remove_2 in N. now rewrite app_nil_r in N. }
      apply A. repeat (constructor; [cbn; lia|]). constructor.
    + intros k. unfold sev_names. cbn [flat_map app]. destruct (in_dec Nat.eq_dec k [0;1;2;3]%nat) as [I|I].
      * repeat destruct I as [<-|I]; try reflexivity. destruct I.
      * destruct k as [|[|[|[|k]]]]; try reflexivity; exfalso; apply I; cbn; lia.
    + reflexivity.
    + cbn. lia.
  - constructor; cbn; try lia; auto. constructor.
Qed.
Lemma sr_keep fs s s' : srel fs s -> maxq s' = maxq s -> quit s' = quit s -> sevs s' = sevs s -> ids s' = ids s -> srel fs s'.
Proof. intros [H1 H2 H3 H4] E1 E2 E3 E4. constructor; congruence. Qed.

Lemma sr_step fs s o : srel fs s -> srel (fs ++ facts1 (show_verb s) o) (fst (step s o)) /\ show_verb (fst (step s o)) = verb_after (show_verb s) o.
Proof.
  intros H. pose proof H as [H1 H2 H3 H4].
  assert (Hn : forall f, maxq s = max_num (fs ++ [f]) \/ exists m, f = FSetMax m).
  { intros f. unfold max_num. rewrite fold_left_app. destruct f; cbn; eauto. }
  destruct o; cbn [facts1 verb_after]; rewrite ?app_nil_r.
  - cbn [step]. destruct (shown && show_verb s) eqn:V.
    + rewrite andb_comm in V. rewrite V, app_nil_r. unfold report. rewrite andb_comm, V. now split.
    + pose proof (sr_msg _ _ sev id counted _ H V) as [A _]. rewrite andb_comm in V. rewrite V. split; auto.
      unfold report. rewrite andb_comm, V. reflexivity.
  - split; [|reflexivity]. cbn [step fst]. constructor; cbn [maxq quit sevs ids].
    + unfold max_num. now rewrite fold_left_app.
    + rewrite quit_from. cbn. exact H2.
    + rewrite sev_names_app. eapply tr_set; eauto; cbn beta.
      * rewrite sev_snoc, Nat.eqb_refl. reflexivity.
      * intros k N. rewrite sev_snoc. apply Nat.eqb_neq in N. now rewrite N.
    + rewrite id_names_app. cbn. rewrite app_nil_r. eapply tr_ext; eauto. intros k. cbn beta. now rewrite id_snoc.
  - split; [|reflexivity]. cbn [step fst]. constructor; cbn [maxq quit sevs ids].
    + unfold max_num. now rewrite fold_left_app.
    + rewrite quit_from. cbn. exact H2.
    + rewrite sev_names_app. cbn. rewrite app_nil_r. eapply tr_ext; eauto. intros k. cbn beta. now rewrite sev_snoc.
    + rewrite id_names_app. eapply tr_set; eauto; cbn beta.
      * rewrite id_snoc, String.eqb_refl. reflexivity.
      * intros k N. rewrite id_snoc. apply String.eqb_neq in N. now rewrite N.
  - split; [|reflexivity]. cbn [step fst]. constructor; cbn [maxq quit sevs ids].
    + unfold max_num. now rewrite fold_left_app.
    + rewrite quit_from. cbn. exact H2.
    + now apply tr_resets.
    + rewrite id_names_app. cbn. rewrite app_nil_r. eapply tr_ext; eauto. intros k. cbn beta. now rewrite id_snoc.
  - split; [|reflexivity]. cbn [step fst]. constructor; cbn [maxq quit sevs ids].
    + unfold max_num. now rewrite fold_left_app.
    + rewrite quit_from. cbn. apply clip_max.
    + rewrite sev_names_app. cbn. rewrite app_nil_r. eapply tr_ext; eauto. intros k. cbn beta. now rewrite sev_snoc.
    + rewrite id_names_app. cbn. rewrite app_nil_r. eapply tr_ext; eauto. intros k. cbn beta. now rewrite id_snoc.
  - split; [|reflexivity]. cbn [step fst]. constructor; cbn [maxq quit sevs ids].
    + unfold max_num. rewrite fold_left_app. cbn. apply clip_max.
    + rewrite quit_from. cbn. exact H2.
    + rewrite sev_names_app. cbn. rewrite app_nil_r. eapply tr_ext; eauto. intros k. cbn beta. now rewrite sev_snoc.
    + rewrite id_names_app. cbn. rewrite app_nil_r. eapply tr_ext; eauto. intros k. cbn beta. now rewrite id_snoc.
  - split; [|reflexivity]. apply sr_keep with s; auto.
  - split; [|reflexivity]. apply sr_keep with s; auto.
  - cbn [step]. rewrite (take_ok _ _ _ _ H3). cbn [fst show_verb]. split; [|reflexivity]. constructor; auto. cbn [sevs].
    apply tr_move; auto. destruct H3 as [_ _ _ HP]. lia.
  - cbn [step]. rewrite (take_ok _ _ _ _ H4). cbn [fst show_verb]. split; [|reflexivity]. constructor; auto. cbn [ids].
    apply tr_move; auto. destruct H4 as [_ _ _ HP]. lia.
  - now split.
  - now split.
  - cbn [step]. destruct (print_ok _ _ _ _ H3) as (q & Q1 & _ & E1). destruct (print_ok _ _ _ _ H4) as (q' & Q1' & _ & E1').
    rewrite E1, E1'. cbn [fst show_verb]. split; [|reflexivity]. constructor; auto; cbn [sevs ids]; apply tr_move; auto.
  - destruct catcher as [[shown counted]|]; cbn [step facts1]; [|rewrite app_nil_r; now split].
    destruct (shown && show_verb s) eqn:V.
    + rewrite andb_comm in V. rewrite V, app_nil_r. unfold report. rewrite andb_comm, V. now split.
    + pose proof (sr_msg _ _ 0%nat catcher_id counted _ H V) as [A B]. pose proof V as V'. rewrite andb_comm in V'. rewrite V'.
      destruct (report s 0%nat catcher_id shown counted) as [s1 e] eqn:R. cbn [fst snd] in *. subst e. split; auto.
      cbn [fst]. unfold report in R. rewrite V in R. injection R as <-. reflexivity.
Qed.
Lemma run_rel ops : srel (facts false ops) (fst (run ops)) /\ show_verb (fst (run ops)) = fold_left verb_after ops false.
Proof.
  induction ops as [|o ops IH] using rev_ind.
  - split; [apply sr_init|reflexivity].
  - destruct IH as [H V]. unfold run in *. rewrite run_machine_app. rewrite facts_app, fold_left_app, <- V.
    destruct (run_machine step srv0 ops) as [s e]. cbn [fst snd] in *. pose proof (sr_step _ s o H) as [A B].
    cbn [run_machine facts fold_left]. destruct (step s o) as [s1 e1]. cbn [fst] in *. rewrite app_nil_r. now split.
Qed.
Lemma idsum_step s o : id_summary (fst (step s o)) = match o with IdSummary b => b | _ => id_summary s end.
Proof.
  destruct o; cbn [step]; try reflexivity.
  - unfold report. now destruct (shown && show_verb s).
  - now destruct (take (sevs s)).
  - now destruct (take (ids s)).
  - destruct (print_tab Nat.eq_dec (sevs s)), (print_tab string_dec (ids s)). reflexivity.
  - destruct catcher as [[a b]|]; [|reflexivity]. unfold report. now destruct (a && show_verb s).
Qed.
Lemma run_idsum ops : id_summary (fst (run ops)) = id_sum_after ops.
Proof.
  induction ops as [|o ops IH] using rev_ind; [reflexivity|]. unfold run, id_sum_after in *. rewrite run_machine_app, fold_left_app.
  destruct (run_machine step srv0 ops) as [s e]. cbn [fst run_machine fold_left] in *. pose proof (idsum_step s o) as A.
  destruct (step s o) as [s1 e1]. cbn [fst] in *. rewrite A. destruct o; auto.
Qed.
Lemma summary_tells fs s : srel fs s -> tells fs (id_summary s) (summary s).
Proof.
  intros [H1 H2 H3 H4]. exists (d_keys (dct (sevs s))), (d_keys (dct (ids s))).
  split; [apply H3|]. split; [apply H4|]. unfold summary. rewrite (lines_ok _ _ _ _ H3), (lines_ok _ _ _ _ H4), !map_map. rewrite H1, H2.
  cbn [fst snd]. destruct (max_num fs =? 0); reflexivity.
Qed.

(** ** what was handed out *)
Definition npr (ops : list op) : Prop := Forall not_print ops.
Lemma gr_step (np : Prop) fs s o gs gi : srel fs s -> gaverel np (sevs s) gs -> gaverel np (ids s) gi ->
  gaverel (np /\ not_print o) (sevs (fst (step s o))) (gs ++ given_sevs (snd (step s o))) /\
  gaverel (np /\ not_print o) (ids (fst (step s o))) (gi ++ given_ids (snd (step s o))).
Proof.
  intros H G1 G2. pose proof H as [H1 H2 H3 H4].
  assert (W : forall K (p : pool K Z) g, gaverel np p g -> gaverel (np /\ not_print o) p (g ++ [])).
  { intros K p g G. rewrite app_nil_r. apply gr_weak with np; auto; tauto. }
  assert (R : forall sev id a b, gaverel np (sevs (fst (report s sev id a b))) gs /\ gaverel np (ids (fst (report s sev id a b))) gi).
  { intros sev id a b. unfold report. destruct (a && show_verb s); [now split|]. split; eapply gr_incr; eauto. }
  destruct o; cbn [step]; try (cbn [fst snd given_sevs given_ids flat_map app]; cbn [sevs ids]; split; apply W; auto; fail).
  - destruct (R sev id shown counted) as [R1 R2]. unfold report in *. destruct (shown && show_verb s); split; apply W; auto.
  - split; apply W; auto. apply gr_add; auto. apply H3.
  - split; apply W; auto. apply gr_add; auto. apply H4.
  - split; apply W; auto. cbn [fst sevs]. unfold reset_sevs.
    assert (A : forall l q, gaverel np q gs -> -1 <= ptr q <= zlen (dct q) - 1 -> gaverel np (fold_left (fun p x => p_add Nat.eq_dec p x 0) l q) gs).
    { induction l as [|x l IH]; intros q G P; cbn [fold_left]; auto. apply IH; [now apply gr_add|]. cbn [p_add ptr dct].
      pose proof (zlen_set Nat.eq_dec (dct q) x 0). lia. }
    apply A; auto. apply H3.
  - pose proof (gr_take _ _ _ _ _ _ H3 G1) as A. destruct (take (sevs s)) as [p l]. cbn [fst snd given_sevs given_ids flat_map sevs ids] in *.
    rewrite !app_nil_r. split; apply gr_weak with np; auto; tauto.
  - pose proof (gr_take _ _ _ _ _ _ H4 G2) as A. destruct (take (ids s)) as [p l]. cbn [fst snd given_sevs given_ids flat_map sevs ids] in *.
    rewrite !app_nil_r. split; apply gr_weak with np; auto; tauto.
  - destruct (print_ok _ _ _ _ H3) as (q & Q1 & Q2 & E1). destruct (print_ok _ _ _ _ H4) as (q' & Q1' & Q2' & E1').
    rewrite E1, E1'. cbn [fst snd given_sevs given_ids flat_map sevs ids]. rewrite !app_nil_r.
    split; eapply gr_weak; try (eapply gr_move; eauto); intros [_ X]; now apply X.
  - destruct catcher as [[a b]|]; [|cbn [fst snd given_sevs given_ids flat_map]; split; now apply W].
    destruct (R 0%nat catcher_id a b) as [R1 R2]. unfold report in *. destruct (a && show_verb s); split; apply W; auto.
Qed.
Lemma run_given ops : gaverel (npr ops) (sevs (fst (run ops))) (given_sevs (snd (run ops))) /\
  gaverel (npr ops) (ids (fst (run ops))) (given_ids (snd (run ops))).
Proof.
  induction ops as [|o ops IH] using rev_ind.
  - split; constructor; exists []; repeat split; auto; try constructor; intros x [].
  - destruct IH as [G1 G2]. pose proof (run_rel ops) as [H _]. unfold run in *. rewrite run_machine_app.
    destruct (run_machine step srv0 ops) as [s e]. cbn [fst snd] in *. pose proof (gr_step _ _ s o _ _ H G1 G2) as [A B].
    cbn [run_machine]. destruct (step s o) as [s1 e1]. cbn [fst snd] in *. unfold given_sevs, given_ids in *. rewrite app_nil_r, !flat_map_app.
    split; eapply gr_weak; eauto; unfold npr; intros X; apply Forall_app in X as [X Y]; split; auto; now inversion Y.
Qed.
