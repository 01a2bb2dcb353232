From Coq Require Import Arith List Bool Lia.
From Verif Require Import Prelude CallbackModel CallbackSpec.
Import ListNotations.

Lemma cb_found_in q c : cb_found q c = true <-> In c q.
Proof.
  unfold cb_found. rewrite existsb_exists. split.
  - intros (x & H & E). apply Nat.eqb_eq in E. now subst.
  - intros H. exists c. split; [exact H|apply Nat.eqb_refl].
Qed.

Lemma enter_put q c o :
  enter q (c, o) = if cb_found q c then q else put_cb o q c.
Proof.
  unfold enter; cbn [fst snd].
  destruct (in_dec Nat.eq_dec c q) as [H|H].
  - apply cb_found_in in H. now rewrite H.
  - destruct (cb_found q c) eqn:E; [apply cb_found_in in E; contradiction|].
    now destruct o.
Qed.

Lemma enter_nodup q e : NoDup q -> NoDup (enter q e).
Proof.
  unfold enter. intros H. destruct (in_dec _ _ _) as [Hi|Hi]; [exact H|].
  destruct (snd e).
  - apply NoDup_rev in H. rewrite <- (rev_involutive (q ++ [fst e])).
    apply NoDup_rev. rewrite rev_app_distr. cbn. constructor; [|exact H].
    now rewrite <- in_rev.
  - now constructor.
Qed.

Lemma fold_enter_nodup es : forall q, NoDup q -> NoDup (fold_left enter es q).
Proof.
  induction es as [|e es IH]; cbn; intros q H; [exact H|].
  apply IH. now apply enter_nodup.
Qed.

Lemma fold_enter_in es : forall q c,
  In c (fold_left enter es q) <-> In c q \/ In c (map fst es).
Proof.
  induction es as [|e es IH]; cbn; intros q c; [tauto|].
  rewrite IH. unfold enter.
  destruct (in_dec Nat.eq_dec (fst e) q) as [Hi|Hi].
  - split; [tauto|]. intros [H|[<-|H]]; tauto.
  - destruct (snd e); [rewrite in_app_iff; cbn|cbn]; tauto.
Qed.

Lemma fold_enter_ne es q : (q <> [] \/ es <> []) -> fold_left enter es q <> [].
Proof.
  intros H E.
  assert (X : forall c, ~ (In c q \/ In c (map fst es))).
  { intros c Hc. apply (fold_enter_in es q c) in Hc. rewrite E in Hc. destruct Hc. }
  destruct H as [H|H].
  - destruct q as [|c q]; [contradiction|]. apply (X c). left. now left.
  - destruct es as [|e es]; [contradiction|]. apply (X (fst e)). right. now left.
Qed.

(** The registry after any history. *)
Lemma fold_app_snoc (es : list (nat * ordering)) e q :
  fold_left enter (es ++ [e]) q = enter (fold_left enter es q) e.
Proof. now rewrite fold_left_app. Qed.

Lemma adds_to_app obj h1 h2 : adds_to obj (h1 ++ h2) = adds_to obj h1 ++ adds_to obj h2.
Proof.
  induction h1 as [|op h1 IH]; cbn; [reflexivity|].
  destruct op as [[a|] [c|] o| c on]; try exact IH.
  - destruct obj as [b|]; [|exact IH]. destruct (Nat.eq_dec a b); cbn; now rewrite IH.
  - destruct obj as [b|]; [exact IH|]. cbn; now rewrite IH.
Qed.

Definition reg_inv (sh : bool) (h : list cop) (s : cbs) : Prop :=
  tw s = registered None h /\
  (forall ob, pool s ob = match adds_to (Some ob) h with
                          | [] => None
                          | _ => Some (registered (Some ob) h)
                          end) /\
  (forall c, enabled s c = mode_after h c) /\
  shared s = sh.

Lemma mode_after_snoc h op c :
  mode_after (h ++ [op]) c =
  match op with
  | KMode c' on => if Nat.eq_dec c' c then on else mode_after h c
  | _ => mode_after h c
  end.
Proof. unfold mode_after. rewrite fold_left_app. now destruct op. Qed.

Lemma reg_inv_step sh h s op :
  reg_inv sh h s -> reg_inv sh (h ++ [op]) (fst (cstep s op)).
Proof.
  intros (Htw & Hp & He & Hs).
  assert (Hadds : forall obj, adds_to obj (h ++ [op]) = adds_to obj h ++ adds_to obj [op])
    by (intro; apply adds_to_app).
  unfold reg_inv, registered in *.
  destruct op as [[ob|] [c|] o| c on]; cbn [cstep add].
  - (* object *)
    destruct (cb_found match pool s ob with Some q => q | None => [] end c) eqn:Ef;
      cbn [fst tw pool enabled shared].
    + split; [rewrite Hadds; cbn [adds_to]; now rewrite app_nil_r|].
      split; [|split; [intro; now rewrite mode_after_snoc|exact Hs]].
      intros x. rewrite Hadds. cbn [adds_to].
      destruct (Nat.eq_dec ob x) as [->|Hn].
      * rewrite upd_eq. rewrite Hp in *.
        rewrite fold_app_snoc, enter_put.
        destruct (adds_to (Some x) h) as [|e es] eqn:Ea.
        { discriminate. }
        rewrite <- Ea in *. rewrite Ef. now destruct (adds_to (Some x) h ++ [(c, o)]) eqn:E2;
          [destruct (adds_to (Some x) h); discriminate|].
      * rewrite upd_neq by auto. rewrite app_nil_r. apply Hp.
    + split; [rewrite Hadds; cbn [adds_to]; now rewrite app_nil_r|].
      split; [|split; [intro; now rewrite mode_after_snoc|exact Hs]].
      intros x. rewrite Hadds. cbn [adds_to].
      destruct (Nat.eq_dec ob x) as [->|Hn].
      * rewrite upd_eq. rewrite Hp in *.
        rewrite fold_app_snoc, enter_put.
        destruct (adds_to (Some x) h) as [|e es] eqn:Ea.
        { cbn. now destruct o. }
        rewrite <- Ea in *. rewrite Ef.
        now destruct (adds_to (Some x) h ++ [(c, o)]) eqn:E2;
          [destruct (adds_to (Some x) h); discriminate|].
      * rewrite upd_neq by auto. rewrite app_nil_r. apply Hp.
  - cbn [fst]. split; [rewrite Hadds; cbn [adds_to]; now rewrite app_nil_r|].
    split; [|split; [intro; now rewrite mode_after_snoc|exact Hs]].
    intros x. rewrite Hadds. cbn [adds_to]. rewrite app_nil_r. apply Hp.
  - unfold add_tw; cbn [fst tw pool enabled shared].
    split; [|split; [|split; [intro; now rewrite mode_after_snoc|exact Hs]]].
    + rewrite Hadds. cbn [adds_to]. rewrite fold_app_snoc, enter_put. now rewrite Htw.
    + intros x. rewrite Hadds. cbn [adds_to]. rewrite app_nil_r. apply Hp.
  - cbn [fst]. split; [rewrite Hadds; cbn [adds_to]; now rewrite app_nil_r|].
    split; [|split; [intro; now rewrite mode_after_snoc|exact Hs]].
    intros x. rewrite Hadds. cbn [adds_to]. rewrite app_nil_r. apply Hp.
  - cbn [callback_mode fst tw pool enabled shared].
    split; [rewrite Hadds; cbn [adds_to]; now rewrite app_nil_r|].
    split; [|split; [|exact Hs]].
    + intros x. rewrite Hadds. cbn [adds_to]. rewrite app_nil_r. apply Hp.
    + intros x. rewrite mode_after_snoc. unfold upd.
      destruct (Nat.eq_dec c x) as [->|Hn]; [now rewrite Nat.eqb_refl|].
      destruct (Nat.eqb_spec x c); [now subst|apply He].
Qed.

Lemma reg_inv_run sh h : reg_inv sh h (fst (run_machine cstep (cbs0 sh) h)).
Proof.
  enough (X : forall h' h0 s, reg_inv sh h0 s ->
            reg_inv sh (h0 ++ h') (fst (run_machine cstep s h'))).
  { apply (X h [] (cbs0 sh)). repeat split. }
  induction h' as [|op h' IH]; intros h0 s H; cbn [run_machine].
  - now rewrite app_nil_r.
  - pose proof (reg_inv_step sh h0 s op H) as H1.
    destruct (cstep s op) as [s1 o1]. cbn [fst] in H1.
    specialize (IH _ _ H1). rewrite <- app_assoc in IH. cbn in IH.
    destruct (run_machine cstep s1 h'); exact IH.
Qed.

(** Iteration. *)
Section It.
  Context (isa : nat -> nat -> bool).

  Lemma scan_up_spec s k q : forall n i m,
    n = length q - i ->
    match scan_up isa s k q m i n with
    | (m', Some c) =>
        i <= m' /\ nth_error q m' = Some c /\ take isa s k c = true /\
        (forall j d, i <= j < m' -> nth_error q j = Some d -> take isa s k d = false)
    | (m', None) =>
        (forall j d, i <= j -> nth_error q j = Some d -> take isa s k d = false) /\
        length q - S m' <= length q - S m /\ (m < length q -> i <= S m -> S m' = length q)
    end.
  Proof.
    induction n as [|n IH]; intros i m Hn; cbn [scan_up].
    - split; [|split; [lia|lia]].
      intros j d Hj Hd. assert (nth_error q j <> None) by congruence.
      apply nth_error_Some in H. lia.
    - destruct (nth_error q i) as [c|] eqn:Ec.
      2:{ apply nth_error_None in Ec. lia. }
      assert (Hlt : i < length q) by (apply nth_error_Some; congruence).
      destruct (take isa s k c) eqn:Et.
      + split; [lia|]. split; [exact Ec|]. split; [exact Et|]. intros; lia.
      + specialize (IH (S i) i ltac:(lia)).
        destruct (scan_up isa s k q i (S i) n) as [m' [d|]].
        * destruct IH as (H1 & H2 & H3 & H4). split; [lia|]. split; [exact H2|].
          split; [exact H3|]. intros j e Hj He.
          destruct (Nat.eq_dec j i) as [->|]; [congruence|]. apply (H4 j e); [lia|exact He].
        * destruct IH as (H1 & H2 & H3). split; [|split].
          -- intros j e Hj He. destruct (Nat.eq_dec j i) as [->|]; [congruence|].
             apply (H1 j e); [lia|exact He].
          -- specialize (H3 Hlt ltac:(lia)). lia.
          -- intros _ _. apply H3; lia.
  Qed.

  Lemma scan_down_spec s k q : forall n m,
    n <= length q ->
    match scan_down isa s k q m n with
    | (m', Some c) =>
        m' < n /\ nth_error q m' = Some c /\ take isa s k c = true /\
        (forall j d, m' < j < n -> nth_error q j = Some d -> take isa s k d = false)
    | (m', None) =>
        forall j d, j < n -> nth_error q j = Some d -> take isa s k d = false
    end.
  Proof.
    induction n as [|n IH]; intros m Hn; cbn [scan_down].
    - intros; lia.
    - destruct (nth_error q n) as [c|] eqn:Ec.
      2:{ apply nth_error_None in Ec. lia. }
      destruct (take isa s k c) eqn:Et.
      + split; [lia|]. split; [exact Ec|]. split; [exact Et|]. intros; lia.
      + specialize (IH n ltac:(lia)).
        destruct (scan_down isa s k q n n) as [m' [d|]].
        * destruct IH as (H1 & H2 & H3 & H4). split; [lia|]. split; [exact H2|].
          split; [exact H3|]. intros j e Hj He.
          destruct (Nat.eq_dec j n) as [->|]; [congruence|]. apply (H4 j e); [lia|exact He].
        * intros j e Hj He. destruct (Nat.eq_dec j n) as [->|]; [congruence|].
          apply (IH j e); [lia|exact He].
  Qed.

  Lemma filter_none (f : nat -> bool) l :
    (forall j d, nth_error l j = Some d -> f d = false) -> filter f l = [].
  Proof.
    induction l as [|a l IH]; intros H; cbn; [reflexivity|].
    rewrite (H 0 a eq_refl). apply IH. intros j d Hd. apply (H (S j) d Hd).
  Qed.

  Lemma filter_skip (f : nat -> bool) q : forall i m c,
    i <= m -> nth_error q m = Some c -> f c = true ->
    (forall j d, i <= j < m -> nth_error q j = Some d -> f d = false) ->
    filter f (skipn i q) = c :: filter f (skipn (S m) q).
  Proof.
    induction q as [|a q IH]; intros i m c Him Hc Hf Hno.
    - now destruct m.
    - destruct m as [|m].
      + assert (i = 0) by lia. subst. cbn in Hc. injection Hc as ->. cbn. now rewrite Hf.
      + destruct i as [|i].
        * cbn [skipn]. cbn [filter]. rewrite (Hno 0 a ltac:(lia) eq_refl).
          change (filter f q) with (filter f (skipn 0 q)).
          apply IH; [lia|exact Hc|exact Hf|].
          intros j d Hj Hd. apply (Hno (S j) d ltac:(lia) Hd).
        * cbn [skipn]. apply IH; [lia|exact Hc|exact Hf|].
          intros j d Hj Hd. apply (Hno (S j) d ltac:(lia) Hd).
  Qed.

  Lemma nth_error_skipn' (q : list nat) : forall i j,
    nth_error (skipn i q) j = nth_error q (i + j).
  Proof.
    induction q as [|a q IH]; intros i j.
    - destruct i, j; reflexivity.
    - destruct i; cbn; [reflexivity|apply IH].
  Qed.

  Lemma filter_skip_none (f : nat -> bool) q i :
    (forall j d, i <= j -> nth_error q j = Some d -> f d = false) ->
    filter f (skipn i q) = [].
  Proof.
    intros H. apply filter_none. intros j d Hd.
    rewrite nth_error_skipn' in Hd. apply (H (i + j) d); [lia|exact Hd].
  Qed.

  Lemma loop_next_spec s obj k : forall n m c,
    nth_error (get_q s obj) m = Some c ->
    length (get_q s obj) - m <= n ->
    loop_next isa s obj k m (Some c) n =
    Some (c :: filter (take isa s k) (skipn (S m) (get_q s obj))).
  Proof.
    induction n as [|n IH]; intros m c Hc Hn.
    - exfalso. assert (nth_error (get_q s obj) m <> None) by congruence.
      apply nth_error_Some in H. lia.
    - cbn [loop_next]. unfold get_next.
      pose proof (scan_up_spec s k (get_q s obj) _ (S m) m eq_refl) as H.
      destruct (scan_up isa s k (get_q s obj) m (S m) _) as [m' [d|]].
      + destruct H as (H1 & H2 & H3 & H4).
        rewrite (IH m' d H2) by lia.
        now rewrite (filter_skip _ _ (S m) m' d H1 H2 H3 H4).
      + destruct H as (H1 & _).
        rewrite (filter_skip_none (take isa s k) (get_q s obj) (S m) H1).
        destruct n; reflexivity.
  Qed.

  Lemma iterate_spec s obj k m n :
    length (get_q s obj) <= n ->
    iterate isa s obj k m n = Some (filter (take isa s k) (get_q s obj)).
  Proof.
    intros Hn. unfold iterate, get_first.
    pose proof (scan_up_spec s k (get_q s obj) (length (get_q s obj)) 0 m ltac:(lia)) as H.
    destruct (scan_up isa s k (get_q s obj) m 0 _) as [m' [d|]].
    - destruct H as (H1 & H2 & H3 & H4).
      rewrite (loop_next_spec s obj k n m' d H2) by lia.
      pose proof (filter_skip _ _ 0 m' d H1 H2 H3 H4) as E.
      change (skipn 0 (get_q s obj)) with (get_q s obj) in E. now rewrite E.
    - destruct H as (H1 & _).
      pose proof (filter_skip_none (take isa s k) (get_q s obj) 0 H1) as E. cbn [skipn] in E.
      rewrite E. destruct n; reflexivity.
  Qed.

  Lemma filter_rev' (f : nat -> bool) l : filter f (rev l) = rev (filter f l).
  Proof.
    induction l as [|a l IH]; cbn; [reflexivity|].
    rewrite filter_app, IH. cbn. destruct (f a); [reflexivity|now rewrite app_nil_r].
  Qed.

  Lemma filter_firstn_none (f : nat -> bool) q n :
    (forall j d, j < n -> nth_error q j = Some d -> f d = false) ->
    filter f (firstn n q) = [].
  Proof.
    revert n; induction q as [|a q IH]; intros [|n] H; cbn; try reflexivity.
    rewrite (H 0 a ltac:(lia) eq_refl). apply IH.
    intros j d Hj Hd. apply (H (S j) d ltac:(lia) Hd).
  Qed.

  Lemma filter_firstn (f : nat -> bool) q : forall n m c,
    m < n -> nth_error q m = Some c -> f c = true ->
    (forall j d, m < j < n -> nth_error q j = Some d -> f d = false) ->
    filter f (firstn n q) = filter f (firstn m q) ++ [c].
  Proof.
    induction q as [|a q IH]; intros n m c Hm Hc Hf Hno.
    - now destruct m.
    - destruct n as [|n]; [lia|]. destruct m as [|m].
      + cbn in Hc. injection Hc as ->. cbn. rewrite Hf.
        rewrite (filter_firstn_none f q n); [reflexivity|].
        intros j d Hj Hd. apply (Hno (S j) d ltac:(lia) Hd).
      + cbn [firstn filter]. rewrite (IH n m c); [|lia|exact Hc|exact Hf|].
        * now destruct (f a).
        * intros j d Hj Hd. apply (Hno (S j) d ltac:(lia) Hd).
  Qed.

  Lemma loop_prev_spec s obj k : forall n m c,
    nth_error (get_q s obj) m = Some c -> m < n ->
    loop_prev isa s obj k m (Some c) n =
    Some (c :: rev (filter (take isa s k) (firstn m (get_q s obj)))).
  Proof.
    induction n as [|n IH]; intros m c Hc Hn; [lia|].
    assert (Hm : m < length (get_q s obj)) by (apply nth_error_Some; congruence).
    cbn [loop_prev]. unfold get_prev.
    pose proof (scan_down_spec s k (get_q s obj) m m ltac:(lia)) as H.
    destruct (scan_down isa s k (get_q s obj) m m) as [m' [d|]].
    - destruct H as (H1 & H2 & H3 & H4).
      rewrite (IH m' d H2) by lia.
      rewrite (filter_firstn _ _ m m' d H1 H2 H3 H4). now rewrite rev_app_distr.
    - rewrite (filter_firstn_none _ _ m H). destruct n; reflexivity.
  Qed.

  Lemma iterate_back_spec s obj k m n :
    length (get_q s obj) <= n ->
    iterate_back isa s obj k m n = Some (rev (filter (take isa s k) (get_q s obj))).
  Proof.
    intros Hn. unfold iterate_back, get_last.
    pose proof (scan_down_spec s k (get_q s obj) (length (get_q s obj)) m ltac:(lia)) as H.
    rewrite <- (firstn_all (get_q s obj)) at 3.
    destruct (scan_down isa s k (get_q s obj) m _) as [m' [d|]].
    - destruct H as (H1 & H2 & H3 & H4).
      rewrite (loop_prev_spec s obj k n m' d H2) by lia.
      rewrite (filter_firstn _ _ _ m' d H1 H2 H3 H4). now rewrite rev_app_distr.
    - rewrite (filter_firstn_none _ _ _ H). destruct n; reflexivity.
  Qed.
End It.
