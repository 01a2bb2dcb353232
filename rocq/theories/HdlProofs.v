From Coq Require Import ZArith List Bool String Ascii Lia.
From Verif Require Import RegFieldModel RegFieldSpec RegFieldProofs RegModel RegSpec RegProofs RegSeqModel RegSeqSpec RegSeqProofs HdlModel HdlSpec.
Import ListNotations.
Open Scope Z_scope.

(** ** Full paths *)
Lemma eqb_empty p : String.eqb p "" = negb (nonempty p).
Proof. destruct p; reflexivity. Qed.
Lemma empty_iff p : nonempty p = false <-> p = EmptyString.
Proof. destruct p; cbn; split; congruence. Qed.

Lemma concat_app sep l x : l <> [] -> String.concat sep (l ++ [x]) = (String.concat sep l ++ sep ++ x)%string.
Proof.
  induction l as [|a l IH]; intros H; [congruence|]. destruct l as [|b l]; [reflexivity|].
  change ((a :: b :: l) ++ [x])%list with (a :: ((b :: l) ++ [x]))%list. 
  transitivity (a ++ sep ++ String.concat sep ((b :: l) ++ [x]))%string; [destruct l; reflexivity|].
  rewrite IH by discriminate. transitivity ((a ++ sep ++ String.concat sep (b :: l)) ++ sep ++ x)%string; [|destruct l; reflexivity].
  assert (A : forall p q r : string, ((p ++ q) ++ r = p ++ (q ++ r))%string) by (induction p; cbn; intros; congruence).
  now rewrite !A.
Qed.
Lemma concat_nonempty sep l : Forall (fun p => nonempty p = true) l -> l <> [] -> nonempty (String.concat sep l) = true.
Proof. destruct l as [|a l]; [congruence|]. intros H _. inversion H; subst. destruct a; [discriminate|]. destruct l; reflexivity. Qed.
Lemma filter_ne l : Forall (fun p => nonempty p = true) (filter nonempty l).
Proof. apply Forall_forall. intros x Hx. now apply filter_In in Hx. Qed.
Lemma full_empty sep ps : full sep ps = EmptyString <-> filter nonempty ps = [].
Proof.
  unfold full. split; [|now intros ->]. destruct (filter nonempty ps) as [|a l] eqn:E; auto. intros H.
  pose proof (concat_nonempty sep (a :: l)) as N. rewrite <- E in *. rewrite H in N. discriminate N; [apply filter_ne|rewrite E; discriminate].
Qed.
Lemma full_snoc sep ps p : full sep (ps ++ [p]) =
  if nonempty p then (if nonempty (full sep ps) then (full sep ps ++ sep ++ p)%string else p) else full sep ps.
Proof.
  destruct (nonempty (full sep ps)) eqn:E.
  - unfold full in *. rewrite filter_app. cbn [filter]. destruct (nonempty p); [|now rewrite app_nil_r].
    apply concat_app. intros F. rewrite F in E. discriminate.
  - apply empty_iff in E. rewrite E. apply full_empty in E. unfold full. rewrite filter_app, E. cbn [filter app]. now destruct (nonempty p).
Qed.

(** Either every choice gives an empty path, or none does. *)
Lemma block_paths_ok kind sep : forall bs, Forall (clear_paths kind) bs ->
  (forall x, In x (fst (block_paths kind sep bs)) <-> nonempty x = true /\ exists ps, picks kind bs ps /\ full sep ps = x) /\
  ((forall ps, picks kind bs ps -> full sep ps = EmptyString) \/ (forall ps, picks kind bs ps -> nonempty (full sep ps) = true)) /\
  (exists ps, picks kind bs ps).
Proof.
  induction bs as [|b bs IH]; intros HC.
  - split; [|split].
    + intros x. cbn. split; [tauto|]. intros (N & ps & P & <-). inversion P; subst. discriminate.
    + left. intros ps P. now inversion P.
    + exists []. constructor.
  - apply Forall_cons_iff in HC. destruct HC as [HB HC]. destruct (IH HC) as (I1 & I2 & (ps0 & P0)). clear IH.
    cbn [block_paths]. destruct (lookup kind (broots b)) as [p|] eqn:ER.
    { assert (HP : forall ps, picks kind (b :: bs) ps -> ps = [p]) by (intros ps P; inversion P; subst; congruence).
      rewrite eqb_empty. split; [|split].
      - intros x. cbn [fst]. split.
        + intros I. destruct (nonempty p) eqn:N; cbn in I; [|tauto]. destruct I as [<-|[]]. split; auto. exists [p].
          split; [now constructor|]. unfold full. cbn. now rewrite N.
        + intros (N & ps & P & E). rewrite (HP ps P) in E. unfold full in E. cbn in E.
          destruct (nonempty p) eqn:N2; cbn in E; subst; [now left|discriminate].
      - destruct (nonempty p) eqn:N; [right|left]; intros ps P; rewrite (HP ps P); unfold full; cbn; rewrite N; auto.
      - exists [p]. now constructor. }
    destruct (lookup kind (bpaths b)) as [own|] eqn:EO.
    2: { assert (HP : forall ps, picks kind (b :: bs) ps -> ps = []) by (intros ps P; inversion P; subst; congruence).
         split; [|split].
         - intros x. cbn. split; [tauto|]. intros (N & ps & P & E). rewrite (HP ps P) in E. subst. discriminate.
         - left. intros ps P. now rewrite (HP ps P).
         - exists []. now apply picks_none. }
    assert (HP : forall ps, picks kind (b :: bs) ps -> exists p qs, ps = qs ++ [p] /\ In p own /\ picks kind bs qs).
    { intros ps P. inversion P; subst; try congruence. replace own with own0 by congruence. eauto. }
    destruct (block_paths kind sep bs) as [par e] eqn:EP. cbn [fst] in *.
    assert (HN : own <> []) by (destruct (HB own EO) as [->|[N _]]; [discriminate|auto]).
    assert (H0 : exists ps, picks kind (b :: bs) ps).
    { destruct own as [|p own]; [congruence|]. exists (ps0 ++ [p]). apply (picks_own kind b bs (p :: own)); auto. now left. }
    destruct I2 as [I2|I2].
    + (* nothing above *)
      assert (Epar : par = []).
      { destruct par as [|x par]; auto. destruct (proj1 (I1 x) (or_introl eq_refl)) as (N & ps & P & E).
        rewrite (I2 ps P) in E. subst. discriminate. }
      subst par. split; [|split; auto].
      * intros x. rewrite in_flat_map. split.
        -- intros (h & Hh & I). rewrite eqb_empty in I. destruct (nonempty h) eqn:N; cbn in I; [|tauto]. destruct I as [<-|[]].
           split; auto. exists (ps0 ++ [h]). split; [apply (picks_own kind b bs own); auto|].
           rewrite full_snoc, N, (I2 ps0 P0). reflexivity.
        -- intros (N & ps & P & E). destruct (HP ps P) as (p & qs & -> & Hp & Q). rewrite full_snoc, (I2 qs Q) in E. cbn in E.
           destruct (nonempty p) eqn:Np; subst; [|discriminate]. exists x. split; auto. rewrite eqb_empty, N. now left.
      * destruct (HB own EO) as [->|[_ NE]].
        -- left. intros ps P. destruct (HP ps P) as (p & qs & -> & [<-|[]] & Q). rewrite full_snoc, (I2 qs Q). reflexivity.
        -- right. intros ps P. destruct (HP ps P) as (p & qs & -> & Hp & Q). rewrite full_snoc, (I2 qs Q). cbn.
           destruct (nonempty p) eqn:Np; auto. apply empty_iff in Np. subst. tauto.
    + assert (Epar : exists x par', par = x :: par').
      { destruct par as [|x par]; eauto. exfalso. apply (proj2 (I1 (full sep ps0))). split; [auto|eauto]. }
      destruct Epar as (x0 & par' & Epar). split; [|split; auto].
      * intros x. rewrite in_flat_map. split.
        -- intros (h & Hh & I). rewrite Epar, <- Epar in I. apply in_map_iff in I. destruct I as (y & E & Hy).
           destruct (proj1 (I1 y) Hy) as (Ny & qs & Q & EQ). assert (EX : full sep (qs ++ [h]) = x).
           { rewrite full_snoc, EQ, Ny. unfold join in E. rewrite eqb_empty in E. destruct (nonempty h); cbn in E; congruence. }
           split.
           { rewrite <- EX, full_snoc, EQ, Ny. destruct (nonempty h); [destruct y; [discriminate|reflexivity]|auto]. }
           exists (qs ++ [h]). split; auto. apply (picks_own kind b bs own); auto.
        -- intros (N & ps & P & E). destruct (HP ps P) as (p & qs & -> & Hp & Q). exists p. split; auto. rewrite Epar, <- Epar.
           apply in_map_iff. exists (full sep qs). split.
           ++ rewrite <- E, full_snoc, (I2 qs Q). unfold join. rewrite eqb_empty. now destruct (nonempty p).
           ++ apply I1. split; [auto|eauto].
      * right. intros ps P. destruct (HP ps P) as (p & qs & -> & Hp & Q). rewrite full_snoc, (I2 qs Q).
        specialize (I2 qs Q). destruct (nonempty p); auto. destruct (full sep qs); [discriminate|reflexivity].
Qed.

Lemma below_eq x s : (if String.eqb (spath s) "" then Slice x (-1) (-1) else Slice (x ++ "." ++ spath s)%string (soff s) (ssize s)) = below x s.
Proof. unfold below. destruct (spath s); reflexivity. Qed.

Lemma nearest_kind bs k : nearest bs k -> default_kind bs = k.
Proof.
  intros [(b1 & b & b2 & -> & F & E & N)|[F ->]].
  - induction b1 as [|x b1 IH]; cbn [default_kind app].
    + rewrite E, eqb_empty. destruct k; [congruence|reflexivity].
    + apply Forall_cons_iff in F. destruct F as [F1 F2]. rewrite F1. cbn. auto.
  - induction bs as [|x bs IH]; auto. apply Forall_cons_iff in F. destruct F as [F1 F2]. cbn [default_kind]. rewrite F1. cbn. auto.
Qed.
Lemma block_errs kind sep : forall bs,
  (snd (block_paths kind sep bs) = 0%nat /\ ~ misses kind bs) \/ (snd (block_paths kind sep bs) = 1%nat /\ misses kind bs).
Proof.
  induction bs as [|b bs IH]; cbn [block_paths].
  - left. split; auto. intros M. inversion M.
  - destruct (lookup kind (broots b)) eqn:ER.
    + left. split; auto. intros M. inversion M; congruence.
    + destruct (lookup kind (bpaths b)) eqn:EB.
      * destruct (block_paths kind sep bs) as [par e]. cbn [snd] in *. destruct IH as [[-> M]|[-> M]].
        -- left. split; auto. intros X. inversion X; subst; [congruence|auto].
        -- right. split; auto. eapply misses_above; eauto.
      * right. split; auto. now constructor.
Qed.
Lemma lookup_entry {A} k (v : A) l : lookup k (with_entry k v l) = Some v.
Proof.
  induction l as [|[k' x] l IH]; cbn; [now rewrite String.eqb_refl|]. destruct (String.eqb k k') eqn:E; cbn; rewrite E; auto.
Qed.
Lemma lookup_other {A} k k' (v : A) l : k' <> k -> lookup k' (with_entry k v l) = lookup k' l.
Proof.
  intros N. induction l as [|[q x] l IH]; cbn.
  - destruct (String.eqb_spec k' k); congruence.
  - destruct (String.eqb_spec k q); cbn; [subst q; destruct (String.eqb_spec k' k); congruence|]. now rewrite IH.
Qed.

(** ** Where a path leads *)
Lemma kid_get t n : kid t n = get t [n].
Proof. destruct t as [v|l]; cbn; auto. now destruct (lookup n l). Qed.
Lemma get_cons t n t' loc : get t [n] = Some t' -> get t (n :: loc) = get t' loc.
Proof. destruct t as [v|l]; cbn; [discriminate|]. destruct (lookup n l); congruence. Qed.
Lemma get_none t n loc : get t [n] = None -> get t (n :: loc) = None.
Proof. destruct t as [v|l]; cbn; auto. destruct (lookup n l); congruence. Qed.
Lemma walk_found : forall ns t, get t (found t ns) = Some (walk t ns).
Proof.
  induction ns as [|n ns IH]; intros t; auto. cbn [walk found]. rewrite kid_get. destruct (get t [n]) as [t'|] eqn:E; auto.
  rewrite (get_cons _ _ _ _ E). auto.
Qed.
Lemma lookup_replace n t' l : lookup n l <> None -> lookup n (replace n t' l) = Some t'.
Proof.
  induction l as [|[k x] l IH]; cbn; [congruence|]. destruct (String.eqb n k) eqn:E; cbn; rewrite E; auto.
Qed.
Lemma lookup_replace_other n m t' l : n <> m -> lookup m (replace n t' l) = lookup m l.
Proof.
  intros N. induction l as [|[k x] l IH]; cbn; auto. destruct (String.eqb n k) eqn:E; cbn.
  - apply String.eqb_eq in E. subst k. destruct (String.eqb m n) eqn:E2; auto. apply String.eqb_eq in E2. congruence.
  - now rewrite IH.
Qed.

Definition same (t t' : node) : Prop := forall loc, get t loc = None <-> get t' loc = None.
Lemma same_found : forall ns t t', same t t' -> found t' ns = found t ns.
Proof.
  induction ns as [|n ns IH]; intros t t' HS; auto. cbn [found]. pose proof (HS [n]) as H1.
  destruct (get t [n]) as [u|] eqn:E, (get t' [n]) as [u'|] eqn:E'; try (destruct H1 as [H1 H2]; (now discriminate H1 || now discriminate H2)).
  - f_equal. apply IH. intros loc. specialize (HS (n :: loc)). now rewrite (get_cons _ _ _ _ E), (get_cons _ _ _ _ E') in HS.
  - now apply IH.
Qed.
Lemma put_ok v : forall ns t x, walk t ns = Sig x -> exists t', put_at t ns v = Some t' /\ same t t' /\
  signal t' (found t ns) = Some v /\ forall loc, loc <> found t ns -> signal t' loc = signal t loc.
Proof.
  induction ns as [|n ns IH]; intros t x HW; cbn [walk put_at found] in *.
  - subst t. exists (Sig v). split; auto. split; [|split].
    + intros [|a l]; cbn; split; congruence.
    + reflexivity.
    + intros [|a l]; cbn; [congruence|auto].
  - rewrite kid_get in *. destruct (get t [n]) as [u|] eqn:E; [|now apply IH with x].
    destruct (IH u x HW) as (u' & E1 & HS & H1 & H2). rewrite E1. destruct t as [z|l]; [discriminate|]. cbn in E.
    destruct (lookup n l) as [u0|] eqn:EL; [|discriminate]. injection E as ->.
    exists (Scope (replace n u' l)). split; auto.
    assert (G : forall loc, get (Scope (replace n u' l)) (n :: loc) = get u' loc).
    { intros loc. cbn. now rewrite lookup_replace by congruence. }
    assert (G0 : forall loc, get (Scope l) (n :: loc) = get u loc) by (intros loc; cbn; now rewrite EL).
    assert (GO : forall m loc, m <> n -> get (Scope (replace n u' l)) (m :: loc) = get (Scope l) (m :: loc)).
    { intros m loc N. cbn. now rewrite lookup_replace_other by congruence. }
    split; [|split].
    + intros [|m loc]; [cbn; split; congruence|]. destruct (string_dec m n) as [->|N]; [now rewrite G, G0|now rewrite GO].
    + unfold signal. now rewrite G.
    + intros [|m loc] Hl; [reflexivity|]. destruct (string_dec m n) as [->|N]; [|unfold signal; now rewrite GO].
      unfold signal. rewrite G, G0. apply H2. congruence.
Qed.
Lemma put_scope v : forall ns t l, walk t ns = Scope l -> put_at t ns v = None.
Proof.
  induction ns as [|n ns IH]; intros t l HW; cbn [walk put_at] in *; [now subst|]. destruct (kid t n) as [u|] eqn:E.
  - now rewrite (IH u l HW).
  - now apply IH with l.
Qed.

Lemma split_nonnil s : split_dot s <> [].
Proof. destruct s as [|c s]; [discriminate|]. cbn. destruct (split_dot s); [discriminate|]. now destruct (Ascii.eqb c "."). Qed.
Lemma split_one s : has_dot s = false -> split_dot s = [s].
Proof.
  induction s as [|c s IH]; intros E; auto. cbn in *. apply orb_false_iff in E. destruct E as [E1 E2]. now rewrite (IH E2), E1.
Qed.
Lemma split_app a b : split_dot (a ++ "." ++ b) = split_dot a ++ split_dot b.
Proof.
  induction a as [|c a IH].
  - cbn. pose proof (split_nonnil b). now destruct (split_dot b).
  - cbn [append] in *. cbn [split_dot]. cbn [append] in IH. rewrite IH. pose proof (split_nonnil a). destruct (split_dot a) as [|w ws]; [congruence|].
    cbn [app]. now destruct (Ascii.eqb c ".").
Qed.
Lemma split_names p ns : names p ns -> split_dot p = ns.
Proof.
  intros (N & F & ->). induction ns as [|n ns IH]; [congruence|]. apply Forall_cons_iff in F. destruct F as [F1 F2].
  destruct ns as [|m ns]; [cbn; now apply split_one|].
  change (String.concat "." (n :: m :: ns)) with (n ++ "." ++ String.concat "." (m :: ns))%string.
  rewrite split_app, IH by (auto; discriminate). now rewrite (split_one n F1).
Qed.
Lemma split_is_names : forall p, names p (split_dot p).
Proof.
  induction p as [|c p IH].
  - split; [discriminate|]. split; [repeat constructor|reflexivity].
  - destruct IH as (N & F & E). split; [apply split_nonnil|]. cbn [split_dot]. destruct (split_dot p) as [|w ws] eqn:ES; [congruence|].
    apply Forall_cons_iff in F. destruct F as [F1 F2]. destruct (Ascii.eqb c ".") eqn:EC.
    + apply Ascii.eqb_eq in EC. subst c. split; [repeat constructor; auto|]. rewrite E. reflexivity.
    + split; [constructor; [cbn; now rewrite EC, F1|auto]|]. rewrite E. destruct ws; reflexivity.
Qed.
Lemma peek_leads t p loc : leads t p loc -> peek t p = signal t loc.
Proof. intros (ns & N & <-). unfold peek, signal. rewrite (split_names p ns N), walk_found. now destruct (walk t ns). Qed.
Lemma leads_fun t p loc : leads t p loc -> loc = found t (split_dot p).
Proof. intros (ns & N & <-). now rewrite (split_names p ns N). Qed.
Lemma deposit_leads t p v loc x : leads t p loc -> signal t loc = Some x -> exists t', deposit t p v = Some t' /\ same t t' /\
  signal t' loc = Some v /\ forall l, l <> loc -> signal t' l = signal t l.
Proof.
  intros (ns & N & <-) HS. unfold deposit. rewrite (split_names p ns N). unfold signal in HS. rewrite walk_found in HS.
  destruct (walk t ns) as [y|] eqn:EW; [|discriminate]. destruct (put_ok v ns t y EW) as (t' & E & A & B & C). eauto.
Qed.
Lemma same_leads t t' p loc : same t t' -> leads t p loc -> leads t' p loc.
Proof. intros S1 (ns & N & <-). exists ns. split; auto. now apply same_found. Qed.
Lemma same_refl t : same t t. Proof. split; auto. Qed.
Lemma same_trans a b c : same a b -> same b c -> same a c.
Proof. intros H1 H2 l. rewrite (H1 l). apply H2. Qed.

(** ** Reading and writing the paths of a register *)
Lemma whole_same t t' ps locs : same t t' -> whole t ps locs -> whole t' ps locs.
Proof.
  intros HS HW. induction HW as [|con loc ps locs (s & -> & O & L) HW IH]; constructor; auto.
  exists s. split; auto. split; auto. eapply same_leads; eauto.
Qed.
Lemma read_one t n s loc v : soff s < 0 -> leads t (spath s) loc -> 0 <= n -> holds t n v loc ->
  exists x, read_concat t 0 [s] = Some x /\ Z.land x (Z.shiftl 1 n - 1) = v.
Proof.
  intros O L Hn (x & E & M). exists x. cbn [read_concat]. replace (soff s <? 0) with true by lia.
  rewrite (peek_leads _ _ _ L), E. split; auto. replace (Z.shiftl 1 n - 1) with (Z.ones n) by (unfold Z.ones; lia). rewrite Z.land_ones; auto.
Qed.
Lemma read_rest t n v : forall ps locs, whole t ps locs -> 0 <= n -> Forall (holds t n v) locs -> read_paths t n false v ps = BVal v.
Proof.
  intros ps locs HW Hn. induction HW as [|con loc ps locs (s & -> & O & L) HW IH]; intros HF; auto.
  apply Forall_cons_iff in HF. destruct HF as [H1 H2]. cbn [read_paths]. destruct (read_one t n s loc v O L Hn H1) as (x & -> & ->).
  rewrite Z.eqb_refl. auto.
Qed.
Lemma read_same t n v c0 ps locs : whole t ps locs -> 0 <= n -> Forall (holds t n v) locs -> locs <> [] ->
  read_paths t n true c0 ps = BVal v.
Proof.
  intros HW Hn HF N. destruct HW as [|con loc ps locs (s & -> & O & L) HW]; [congruence|]. apply Forall_cons_iff in HF. destruct HF as [H1 H2].
  cbn [read_paths]. destruct (read_one t n s loc v O L Hn H1) as (x & -> & ->). rewrite Z.eqb_refl. eapply read_rest; eauto.
Qed.
Lemma read_differ t n v : forall ps locs, whole t ps locs -> 0 <= n ->
  Forall (fun l => exists x, signal t l = Some x) locs -> Exists (fun l => ~ holds t n v l) locs -> read_paths t n false v ps = BDiffer v.
Proof.
  intros ps locs HW Hn. induction HW as [|con loc ps locs (s & -> & O & L) HW IH]; intros HF HE; [inversion HE|].
  apply Forall_cons_iff in HF. destruct HF as [(y & Hy) H2]. cbn [read_paths].
  destruct (read_one t n s loc (y mod 2 ^ n) O L Hn) as (x & -> & ->); [exists y; auto|].
  destruct (y mod 2 ^ n =? v) eqn:E.
  - apply IH; auto. inversion HE as [? ? X|]; subst; auto. exfalso. apply X. exists y. split; auto. lia.
  - reflexivity.
Qed.
Lemma read_differ1 t n v c0 ps loc locs : whole t ps (loc :: locs) -> 0 <= n -> holds t n v loc ->
  Forall (fun l => exists x, signal t l = Some x) locs -> Exists (fun l => ~ holds t n v l) locs -> read_paths t n true c0 ps = BDiffer v.
Proof.
  intros HW Hn H1 H2 HE. inversion HW as [|con ? ps' ? (s & -> & O & L) HW']; subst. cbn [read_paths].
  destruct (read_one t n s loc v O L Hn H1) as (x & -> & ->). rewrite Z.eqb_refl. eapply read_differ; eauto.
Qed.
Lemma list_str_dec (a b : list string) : {a = b} + {a <> b}.
Proof. apply list_eq_dec, string_dec. Qed.
Lemma write_whole v : forall ps locs t, whole t ps locs -> Forall (fun l => exists x, signal t l = Some x) locs ->
  exists t', write_paths t v ps = (t', false) /\ same t t' /\ (forall l, In l locs -> signal t' l = Some v) /\
    forall l, ~ In l locs -> signal t' l = signal t l.
Proof.
  induction ps as [|con ps IH]; intros locs t HW HF; inversion HW as [|? loc ? locs' (s & -> & O & L) HW']; subst.
  - exists t. split; auto. split; [apply same_refl|]. split; [intros l []|auto].
  - apply Forall_cons_iff in HF. destruct HF as [(x & Hx) H2]. cbn [write_paths write_concat]. replace (soff s <? 0) with true by lia.
    destruct (deposit_leads t (spath s) v loc x L Hx) as (t1 & -> & S1 & A & B).
    destruct (IH locs' t1) as (t2 & E & S2 & C & D0).
    + eapply whole_same; eauto.
    + eapply Forall_impl; [|exact H2]. cbn. intros l (y & Hy). destruct (list_str_dec l loc) as [->|N]; [eauto|]. rewrite B; eauto.
    + exists t2. split; auto. split; [eapply same_trans; eauto|]. split.
      * intros l [<-|Hl]; auto. destruct (in_dec list_str_dec loc locs'); auto. rewrite D0; auto.
      * intros l Hl. rewrite D0, B; auto; intros F; apply Hl; [left; congruence|now right].
Qed.

(** ** Fields *)
Lemma wf_ready r : well_formed r -> ready (fields r) /\ 0 <= n_bits r.
Proof.
  intros (Hn & [HL HD] & HO & HF). split; auto.
  assert (HI : Forall FInv (fields r)).
  { rewrite Forall_forall in *. intros f Hf. destruct (HF f Hf) as (A & B & C). destruct (HL f Hf) as (L1 & L2 & L3).
    split; auto. split; auto. split; auto. intros k v E. revert E. induction (resets f) as [|[k' v'] l IH]; [discriminate|].
    apply Forall_cons_iff in C. destruct C as [C1 C2]. cbn. destruct (Nat.eqb k k'); [intros [= <-]; exact C1|auto]. }
  split.
  - clear -HL HD HO. revert HL HD HO. unfold chain, in_order, pairwise_disjoint. induction (fields r) as [|f fs IH]; intros HL HD HO; [constructor|].
    inversion HL as [|? ? L1 L2]; subst. inversion HD as [|? ? D1 D2]; subst. inversion HO as [|? ? O1 O2]; subst.
    constructor; auto. rewrite Forall_forall in *. intros g Hg. specialize (D1 g Hg). specialize (O2 g Hg). specialize (L2 g Hg).
    cbn in *. destruct (Z.lt_ge_cases (lsb g) (lsb f + size f)); [|lia]. exfalso. apply (D1 (lsb g)). unfold covers. lia.
  - rewrite Forall_forall in *. intros f Hf. split; auto. destruct (HL f Hf). lia.
Qed.
Lemma predict_val f cur w m : FInv f -> fits_in (size f) cur -> fits_in (size f) w ->
  has_bits (size f) (XpredictX f cur w m)
    (fun i => write_bit (write_effect (get_access f m)) (written f) (Z.testbit cur i) (Z.testbit w i)).
Proof.
  intros HI HC HW. pose proof (finv_both f cur HI HC) as HI2. assert (Hs : 0 <= size f) by (destruct HI; lia).
  pose proof (write_prediction (with_both f cur) w m HI2) as HB. change (size (with_both f cur)) with (size f) in HB.
  change (get_mask (with_both f cur)) with (get_mask f) in HB. change (mirrored (with_both f cur)) with cur in HB.
  change (get_access (with_both f cur) m) with (get_access f m) in HB. change (written (with_both f cur)) with (written f) in HB.
  rewrite mask_ones in HB. rewrite (land_mask_id _ w) in HB by auto.
  change (XpredictX (with_both f cur) cur w m) with (XpredictX f cur w m) in HB.
  pose proof (predict_fits (with_both f cur) w m HI2 HW) as HP. change (XpredictX (with_both f cur) (mirrored (with_both f cur)) w m) with (XpredictX f cur w m) in HP.
  change (size (with_both f cur)) with (size f) in HP. now rewrite land_mask_id in HB.
Qed.
Lemma back_predict r v k : k <> PDirect -> ready (fields r) ->
  let r' := fst (reg_predict r v k BackPath Backdoor (-1)) in
  n_bits r' = n_bits r /\
  Forall2 (takes v (match k with PWrite => true | _ => false end)) (fields r) (fields r').
Proof.
  intros Hk [HC HF] r'. unfold r'. split; [apply predict_n_bits|]. unfold reg_predict.
  replace (is_direct k) with false by (destruct k; [congruence|reflexivity|reflexivity]). rewrite andb_false_r.
  destruct (predict_fields_all (busy r) v k BackPath Backdoor (fields r) true) as (fs' & ok' & E & H2).
  { eapply Forall_impl; [|exact HF]. cbn. tauto. }
  rewrite E. cbn [fst with_fields fields]. clear E HC r'. induction H2 as [|f f' fs fs' (o & o' & HD) H2 IH]; constructor.
  - apply Forall_cons_iff in HF. destruct HF as [[HI Hl] _]. destruct HI as (Hs & _). unfold do_predict in HD.
    change (Z.land 1 (-1) =? 0) with false in HD. cbn iota in HD. rewrite mask_ones in HD.
    rewrite (land_mask_id (size f) (slice v f)) in HD by (try lia; apply slice_fits; lia).
    assert (HB : has_bits (size f) (slice v f) (fun i => Z.testbit v (i + lsb f))).
    { split; [apply slice_fits; lia|]. intros i Hi. now apply slice_bit. }
    destruct k; [congruence| |].
    + change (get_mask (with_written f true)) with (get_mask f) in HD. rewrite mask_ones in HD.
      rewrite land_mask_id in HD by (try lia; apply slice_fits; lia). injection HD as <- <-. repeat split; auto; apply HB.
    + rewrite land_mask_id in HD by (try lia; apply slice_fits; lia). injection HD as <- <-. repeat split; auto; apply HB.
  - apply IH. now apply Forall_cons_iff in HF.
Qed.
Lemma takes_shape v b f f' : takes v b f f' -> shape f' = shape f.
Proof. intros (A & B & C & _). unfold shape. congruence. Qed.
Lemma takes_finv v b f f' : FInv f -> takes v b f f' -> FInv f'.
Proof.
  intros (A & B & C & D0) (e1 & e2 & e3 & e4 & e5 & e6 & e7 & e8). unfold FInv. rewrite e1, e5, e7. repeat (split; auto); apply e8.
Qed.

Lemma set_ready r v : ready (fields r) -> ready (fields (reg_set r v)) /\ map shape (fields (reg_set r v)) = map shape (fields r).
Proof.
  intros HR. assert (E : map shape (fields (reg_set r v)) = map shape (fields r)).
  { cbn [reg_set with_fields fields]. rewrite map_map. apply map_ext. reflexivity. }
  split; auto. eapply ready_next; eauto. apply Forall_forall. intros f Hf. apply in_map_iff in Hf. destruct Hf as (g & <- & Hg).
  apply finv_set. destruct HR as [_ HF]. rewrite Forall_forall in HF. now apply HF.
Qed.
Lemma merge_ok c fs cur v : ready fs -> made_of fs (merge c fs cur v)
  (fun f i => write_bit (write_effect (get_access f (dmap c))) (written f) (Z.testbit cur i) (Z.testbit v i)).
Proof.
  intros HR. change (merge c fs cur v) with (compose (fun f => XpredictX f (slice cur f) (slice v f) (dmap c)) fs).
  assert (HP : forall f, In f fs -> has_bits (size f) (XpredictX f (slice cur f) (slice v f) (dmap c))
     (fun i => write_bit (write_effect (get_access f (dmap c))) (written f) (Z.testbit cur (i + lsb f)) (Z.testbit v (i + lsb f)))).
  { intros f Hf. destruct HR as [_ HF]. rewrite Forall_forall in HF. destruct (HF f Hf) as [HI Hl]. assert (0 < size f) by apply HI.
    eapply has_bits_ext; [apply predict_val; auto; apply slice_fits; lia|]. cbn. intros i Hi. now rewrite !slice_bit by auto. }
  destruct (ready_compose (fun f => XpredictX f (slice cur f) (slice v f) (dmap c)) fs HR) as (C0 & C1 & C2).
  { intros f Hf. apply (HP f Hf). }
  split; auto. split; auto. intros f i Hf Hc. rewrite (C1 f i Hf Hc). destruct (HP f Hf) as [_ B]. unfold covers in Hc.
  rewrite B by lia. now replace (i - lsb f + lsb f) with i by lia.
Qed.

(** What set() does before a write fails *)
Definition wanted (v : Z) (f f' : field) : Prop :=
  size f' = size f /\ lsb f' = lsb f /\ access f' = access f /\ written f' = written f /\ mirrored f' = mirrored f.
Lemma pre_write r v : ready (fields r) -> pre_write_value (reg_set r v) v = Z.land v (Z.ones (n_bits r)).
Proof.
  intros HR. unfold pre_write_value. rewrite pre_write_id.
  - cbn [reg_set with_fields n_bits]. f_equal.
  - destruct (set_ready r v HR) as [[_ HF] _]. eapply Forall_impl; [|exact HF]. cbn. tauto.
Qed.
Lemma map_F2 {A B} (g : A -> B) (P : A -> B -> Prop) l : (forall x, In x l -> P x (g x)) -> Forall2 P l (map g l).
Proof. induction l as [|a l IH]; intros Hx; cbn; constructor; [apply Hx; now left|apply IH; intros; apply Hx; now right]. Qed.

Section Back.
Context {H : Type} (wr : @D H -> via -> Z -> @D H * bool) (rd : @D H -> via -> @D H * Z * bool).
Notation st := (HdlModel.st H).

Lemma back_write_ok c (s : st) v locs cur : ready (fields (rg s)) -> 0 <= n_bits (rg s) -> layout (n_bits (rg s)) (fields (rg s)) ->
  held s = false -> in_file c = false -> whole (sigs s) (fst (full_hdl_paths c)) locs -> locs <> [] ->
  Forall (holds (sigs s) (n_bits (rg s)) cur) locs ->
  exists s' fv, back_write c s v = (s', Done true fv, path_errs c ++ path_errs c) /\ held s' = false /\ rest s' = rest s /\
    same (sigs s) (sigs s') /\
    (forall l, In l locs -> signal (sigs s') l = Some fv) /\ (forall l, ~ In l locs -> signal (sigs s') l = signal (sigs s) l) /\
    made_of (fields (rg s)) fv (fun f i => write_bit (write_effect (get_access f (dmap c))) (written f) (Z.testbit cur i) (Z.testbit v i)) /\
    n_bits (rg s') = n_bits (rg s) /\ Forall2 (takes fv true) (fields (rg s)) (fields (rg s')).
Proof.
  intros HR Hn HL Hh Hi HW HN HF. unfold back_write. rewrite Hh, Hi. rewrite (pre_write _ _ HR).
  destruct (set_ready (rg s) v HR) as [HR2 HS2]. unfold rw_paths.
  change (n_bits (reg_set (rg s) v)) with (n_bits (rg s)).
  rewrite (read_same (sigs s) (n_bits (rg s)) cur _ _ locs HW Hn HF HN).
  set (bv := Z.land v (Z.ones (n_bits (rg s)))). set (r := reg_set (rg s) v) in *. set (fv := merge c (fields r) cur bv).
  destruct (write_whole fv (fst (full_hdl_paths c)) locs (sigs s) HW) as (t' & E & S1 & A & B).
  { eapply Forall_impl; [|exact HF]. cbn. intros l (x & Hx & _). eauto. }
  rewrite E. eexists _, fv. split; [reflexivity|]. cbn [held rest sigs rg upd].
  do 3 (split; auto). split; auto. split; auto.
  assert (HT : made_of (fields (rg s)) fv (fun f i => write_bit (write_effect (get_access f (dmap c))) (written f) (Z.testbit cur i) (Z.testbit v i))).
  { destruct (merge_ok c (fields r) cur bv HR2) as (M0 & M1 & M2). split; auto. split.
    - intros f i Hf Hc. unfold fv. rewrite (M1 (f_set f (slice v f)) i).
      + assert (HL1 := proj1 HL). rewrite Forall_forall in HL1. destruct (HL1 f Hf) as (L1 & L2 & L3). unfold covers in Hc.
        unfold bv. rewrite Z.land_spec, ones_bit, andb_true_r by lia. reflexivity.
      + apply in_map_iff. exists f. auto.
      + exact Hc.
    - intros i Hi0 Hnc. apply M2; auto. intros f Hf Hc. apply in_map_iff in Hf. destruct Hf as (g & <- & Hg). exact (Hnc g Hg Hc). }
  split; auto. destruct (back_predict r fv PWrite) as (P1 & P2); [discriminate|auto|]. split; auto.
  cbn iota in P2. cbn [r reg_set with_fields fields] in P2. clear -P2. fold r in P2.
  remember (fields (fst (reg_predict r fv PWrite BackPath Backdoor (-1)))) as l'. clear Heql'. clearbody fv. revert l' P2.
  induction (fields (rg s)) as [|f fs IH]; intros l' P2; inversion P2; subst; constructor; auto.
Qed.

Lemma back_write_differ c (s : st) v loc locs cur : ready (fields (rg s)) -> 0 <= n_bits (rg s) ->
  held s = false -> in_file c = false -> whole (sigs s) (fst (full_hdl_paths c)) (loc :: locs) ->
  holds (sigs s) (n_bits (rg s)) cur loc -> Forall (fun l => exists x, signal (sigs s) l = Some x) locs ->
  Exists (fun l => ~ holds (sigs s) (n_bits (rg s)) cur l) locs ->
  exists r', back_write c s v = (St r' (sigs s) (rest s) false, Done false v, path_errs c ++ [EDiffer]) /\
    Forall2 (wanted v) (fields (rg s)) (fields r').
Proof.
  intros HR Hn Hh Hi HW H1 HF HE. unfold back_write. rewrite Hh, Hi. unfold rw_paths.
  change (n_bits (reg_set (rg s) v)) with (n_bits (rg s)).
  rewrite (read_differ1 (sigs s) (n_bits (rg s)) cur _ _ loc locs HW Hn H1 HF HE). eexists. split; [reflexivity|].
  apply map_F2. intros f _. repeat split; reflexivity.
Qed.

(** ** Reading *)
Lemma field_mask_bit f i : 0 <= lsb f -> 0 < size f -> 0 <= i -> Z.testbit (field_mask f) i = (lsb f <=? i) && (i <? lsb f + size f).
Proof.
  intros Hl Hs Hi. unfold field_mask. rewrite Z.shiftl_spec by auto.
  replace (Z.shiftl 1 (size f) - 1) with (Z.ones (size f)) by (unfold Z.ones; lia). rewrite Z.testbit_ones by lia. lia.
Qed.
Lemma clears p : is_in p [RC; WRC; WSRC; W1SRC; W0SRC] = true <-> read_effect p = RClear.
Proof. destruct p; cbn; split; congruence. Qed.
Lemma sets p : is_in p [RS; WRS; WCRS; W1CRS; W0CRS] = true <-> read_effect p = RSet.
Proof. destruct p; cbn; split; congruence. Qed.
Lemma unread p : p <> NOACCESS -> (is_in p [WO; WOC; WOS; WO1] = true <-> read_effect p = RUnreadable).
Proof. destruct p; cbn; intros N; split; congruence. Qed.
(** the bit of the signal after a read *)
Definition left_bit (f : field) (b : bool) : bool :=
  match read_effect (access f) with RClear => false | RSet => true | _ => b end.
Lemma after_read_bits fs : forall v, ready fs ->
  (forall f i, In f fs -> covers f i -> Z.testbit (after_read fs v) i = left_bit f (Z.testbit v i)) /\
  (forall i, 0 <= i -> (forall f, In f fs -> ~ covers f i) -> Z.testbit (after_read fs v) i = Z.testbit v i).
Proof.
  induction fs as [|f fs IH]; intros v [HC HF]; [split; [intros f i []|auto]|].
  apply Forall_cons_iff in HF. destruct HF as [[HI Hl] HF]. assert (Hs : 0 < size f) by apply HI. inversion HC as [|? ? HC1 HC2]; subst.
  cbn [after_read fold_left]. fold (after_read fs). set (v1 := if is_in (get_access f Backdoor) _ then _ else _).
  assert (HV : forall i, 0 <= i -> Z.testbit v1 i = if (lsb f <=? i) && (i <? lsb f + size f) then left_bit f (Z.testbit v i) else Z.testbit v i).
  { intros i Hi. unfold v1, left_bit. change (get_access f Backdoor) with (access f).
    pose proof (clears (access f)) as X1. pose proof (sets (access f)) as X2.
    destruct (is_in (access f) [RC; WRC; WSRC; W1SRC; W0SRC]).
    - rewrite (proj1 X1 eq_refl), Z.land_spec, Z.lnot_spec, field_mask_bit by auto. destruct ((lsb f <=? i) && (i <? lsb f + size f)); cbn; [apply andb_false_r|apply andb_true_r].
    - destruct (is_in (access f) [RS; WRS; WCRS; W1CRS; W0CRS]).
      + rewrite (proj1 X2 eq_refl), Z.lor_spec, field_mask_bit by auto. destruct ((lsb f <=? i) && (i <? lsb f + size f)); cbn; [apply orb_true_r|apply orb_false_r].
      + destruct (read_effect (access f)) eqn:E; try (now destruct ((lsb f <=? i) && (i <? lsb f + size f))).
        * pose proof (proj2 X1 eq_refl). discriminate.
        * pose proof (proj2 X2 eq_refl). discriminate. }
  destruct (IH v1) as (I1 & I2); [split; auto|]. change (fold_left _ fs v1) with (after_read fs v1).
  assert (HD : forall g i, In g fs -> covers g i -> ~ covers f i).
  { intros g i Hg Hc Hc'. rewrite Forall_forall in HC2. specialize (HC2 g Hg). unfold covers in *. lia. }
  split.
  - intros g i [<-|Hg] Hc.
    + rewrite I2; [|unfold covers in Hc; lia|intros h Hh Hc'; exact (HD h i Hh Hc' Hc)].
      unfold covers in Hc. rewrite HV by lia. now replace ((lsb f <=? i) && (i <? lsb f + size f)) with true by lia.
    + rewrite (I1 g i Hg Hc). pose proof (HD g i Hg Hc) as N. unfold covers in N, Hc.
      rewrite Forall_forall in HF. destruct (HF g Hg). rewrite HV by lia.
      now replace ((lsb f <=? i) && (i <? lsb f + size f)) with false by lia.
  - intros i Hi Hn. rewrite I2 by (auto; intros h Hh; apply Hn; now right). rewrite HV by auto.
    pose proof (Hn f (or_introl eq_refl)) as N. unfold covers in N.
    now replace ((lsb f <=? i) && (i <? lsb f + size f)) with false by lia.
Qed.
Lemma wo_mask_bits fs i : 0 <= i -> Forall (fun f => FInv f /\ 0 <= lsb f) fs -> forall acc,
  Z.testbit (fold_left (fun v f => if is_in (get_access f Backdoor) [WO; WOC; WOS; WO1] then Z.lor v (field_mask f) else v) fs acc) i =
  Z.testbit acc i || existsb (fun f => is_in (access f) [WO; WOC; WOS; WO1] && ((lsb f <=? i) && (i <? lsb f + size f))) fs.
Proof.
  intros Hi. induction fs as [|f fs IH]; intros HF acc; cbn [fold_left existsb]; [now rewrite orb_false_r|].
  apply Forall_cons_iff in HF. destruct HF as [[HI Hl] HF]. assert (0 < size f) by apply HI. rewrite IH by auto.
  change (get_access f Backdoor) with (access f). destruct (is_in (access f) _); cbn [andb]; [|reflexivity].
  rewrite Z.lor_spec, field_mask_bit by auto. now rewrite orb_assoc.
Qed.
Lemma seen_bits fs v : ready fs ->
  (forall f i, In f fs -> covers f i -> Z.testbit (Z.land v (Z.lnot (wo_mask fs))) i =
     if is_in (access f) [WO; WOC; WOS; WO1] then false else Z.testbit v i) /\
  (forall i, 0 <= i -> (forall f, In f fs -> ~ covers f i) -> Z.testbit (Z.land v (Z.lnot (wo_mask fs))) i = Z.testbit v i).
Proof.
  intros [HC HF]. pose proof (chain_disjoint fs HC) as HD. split.
  - intros f i Hf Hc. assert (Hl : 0 <= lsb f) by (rewrite Forall_forall in HF; now apply HF). assert (0 <= i) by (unfold covers in Hc; lia).
    rewrite Z.land_spec, Z.lnot_spec by auto. unfold wo_mask. rewrite wo_mask_bits by auto. rewrite Z.bits_0. cbn [orb].
    destruct (is_in (access f) [WO; WOC; WOS; WO1]) eqn:E.
    + replace (existsb _ fs) with true; [apply andb_false_r|]. symmetry. apply existsb_exists. exists f. split; auto. rewrite E. unfold covers in Hc. lia.
    + replace (existsb _ fs) with false; [apply andb_true_r|]. symmetry. apply not_true_iff_false. intros X. apply existsb_exists in X.
      destruct X as (g & Hg & X). apply andb_true_iff in X. destruct X as [X1 X2].
      destruct (pairs_in _ _ f g HD Hf Hg) as [->|[N|N]]; [congruence| |]; apply (N i); unfold covers in *; lia.
  - intros i Hi Hn. rewrite Z.land_spec, Z.lnot_spec by auto. unfold wo_mask. rewrite wo_mask_bits by auto. rewrite Z.bits_0. cbn [orb].
    replace (existsb _ fs) with false; [apply andb_true_r|]. symmetry. apply not_true_iff_false. intros X. apply existsb_exists in X.
    destruct X as (g & Hg & X). apply (Hn g Hg). unfold covers. lia.
Qed.

Lemma back_read_ok c (s : st) locs cur : ready (fields (rg s)) -> 0 <= n_bits (rg s) ->
  in_file c = false -> whole (sigs s) (fst (full_hdl_paths c)) locs -> locs <> [] ->
  Forall (holds (sigs s) (n_bits (rg s)) cur) locs ->
  exists s' es, let seen := Z.land cur (Z.lnot (wo_mask (fields (rg s)))) in
    back_read_ c s = (s', Done true seen, es) /\ held s' = held s /\ rest s' = rest s /\ same (sigs s) (sigs s') /\
    (if after_read (fields (rg s)) cur =? cur then sigs s' = sigs s
     else (forall l, In l locs -> signal (sigs s') l = Some (after_read (fields (rg s)) cur)) /\
          (forall l, ~ In l locs -> signal (sigs s') l = signal (sigs s) l)) /\
    n_bits (rg s') = n_bits (rg s) /\ Forall2 (takes seen false) (fields (rg s)) (fields (rg s')) /\
    es = path_errs c ++ (if after_read (fields (rg s)) cur =? cur then [] else path_errs c) ++
      (if bcheck c && negb (do_check (combine (fields (rg s)) (nc c)) (reg_get (rg s)) seen Backdoor) then [ECheck] else []).
Proof.
  intros HR Hn Hi HW HN HF. unfold back_read_. rewrite Hi. unfold rw_paths.
  rewrite (read_same (sigs s) (n_bits (rg s)) cur _ _ locs HW Hn HF HN). set (seen := Z.land cur _).
  destruct (back_predict (rg s) seen PRead) as (P1 & P2); [discriminate|auto|]. cbn iota in P2.
  destruct (after_read (fields (rg s)) cur =? cur) eqn:E.
  - eexists _, _. split; [reflexivity|]. cbn [held rest sigs rg upd]. do 2 (split; auto). split; [apply same_refl|]. do 3 (split; auto).
    now rewrite !app_nil_r.
  - destruct (write_whole (after_read (fields (rg s)) cur) (fst (full_hdl_paths c)) locs (sigs s) HW) as (t' & Ew & S1 & A & B).
    { eapply Forall_impl; [|exact HF]. cbn. intros l (x & Hx & _). eauto. }
    rewrite Ew. eexists _, _. split; [reflexivity|]. cbn [held rest sigs rg upd]. do 6 (split; auto). now rewrite app_assoc.
Qed.
End Back.

(** ** The access test *)
Lemma check_refl fs v m : do_check fs v v m = true.
Proof. unfold do_check. apply Z.eqb_refl. Qed.
Lemma paths_has c : fst (full_hdl_paths c) <> [] -> has_path c = true.
Proof. unfold full_hdl_paths, has_path. destruct (lookup _ _); cbn; congruence. Qed.

Section Test.
Context {H : Type} (wr : @D H -> via -> Z -> @D H * bool) (rd : @D H -> via -> @D H * Z * bool).
Context (dwr : Z * H -> via -> Z -> (Z * H) * bool) (drd : Z * H -> via -> (Z * H) * Z * bool) (done : H -> bool) (loc : list string).
Notation st := (HdlModel.st H).
Notation bits := (fun (d : Z * H) i => Z.testbit (fst d) i).
Notation dn := (fun d : Z * H => done (snd d)).
Hypothesis SEEN : seen_as loc wr rd dwr drd.

Record Inv (c : cfg) (s : st) (x : Z) : Prop := {
  v_held : held s = false;
  v_whole : whole (sigs s) (fst (full_hdl_paths c)) [loc];
  v_sig : signal (sigs s) loc = Some x;
  v_good : Good bits dn (rg s) (x, rest s);
  v_tidy : tidy (fields (rg s)) x;
  v_lay : layout (n_bits (rg s)) (fields (rg s))
}.
Lemma tidy_shape fs fs' x : map shape fs' = map shape fs -> tidy fs x -> tidy fs' x.
Proof.
  intros E [A B]. split; auto. intros i Hi Hn. apply B; auto. apply coverb_false. rewrite <- (coverb_shape fs fs' i E). now apply coverb_false.
Qed.
Lemma Forall_shape (P : Z * Z * policy -> Prop) : forall fs fs', map shape fs' = map shape fs ->
  Forall (fun f => P (shape f)) fs -> Forall (fun f => P (shape f)) fs'.
Proof. intros fs fs' E HF. apply Forall_map. rewrite E. now apply Forall_map. Qed.
Lemma layout_shape n fs fs' : ready fs' -> map shape fs' = map shape fs -> layout n fs -> layout n fs'.
Proof.
  intros HR E [A B]. split.
  - apply (Forall_shape (fun z => 0 < fst (fst z) /\ 0 <= snd (fst z) /\ snd (fst z) + fst (fst z) <= n) fs fs' E). exact A.
  - apply chain_disjoint. apply HR.
Qed.
Lemma tidy_fits n fs x : layout n fs -> 0 <= n -> tidy fs x -> x mod 2 ^ n = x.
Proof.
  intros [A _] Hn [B C]. rewrite <- Z.land_ones by auto. apply Z.bits_inj'. intros i Hi. rewrite Z.land_spec.
  destruct (Z.lt_ge_cases i n); [now rewrite ones_bit, andb_true_r by lia|]. rewrite Z.ones_spec_high, andb_false_r by lia.
  symmetry. apply C; auto. intros f Hf Hc. rewrite Forall_forall in A. destruct (A f Hf). unfold covers in Hc. lia.
Qed.
Lemma sync_val r x h : Good bits dn r (x, h) -> tidy (fields r) x -> reg_get r = x /\ reg_get_mirrored r = x.
Proof.
  intros (Hn & HR & HS) [T0 T1]. split.
  - destruct (ready_get r HR) as (C0 & C1 & C2). apply Z.bits_inj'. intros i Hi. destruct (coverb (fields r) i) eqn:E.
    + apply coverb_true in E. destruct E as (f & Hf & Hc). destruct (HS f Hf) as (s1 & _ & s3). rewrite (C1 f i Hf Hc), s1. exact (s3 i Hc).
    + assert (HNc := proj1 (coverb_false _ _) E). now rewrite C2, T1 by auto.
  - destruct (ready_mirrored r HR) as (C0 & C1 & C2). apply Z.bits_inj'. intros i Hi. destruct (coverb (fields r) i) eqn:E.
    + apply coverb_true in E. destruct E as (f & Hf & Hc). destruct (HS f Hf) as (s1 & _ & s3). rewrite (C1 f i Hf Hc). exact (s3 i Hc).
    + assert (HNc := proj1 (coverb_false _ _) E). now rewrite C2, T1 by auto.
Qed.
Lemma takes_ready v b fs fs' : ready fs -> Forall2 (takes v b) fs fs' -> ready fs' /\ map shape fs' = map shape fs.
Proof.
  intros HR H2. assert (E : map shape fs' = map shape fs).
  { apply (F2_shape (fun _ _ => True)). eapply F2_impl; [|exact H2]. intros f f' T. split; auto. eapply takes_shape; eauto. }
  split; auto. eapply ready_next; eauto. apply Forall_forall. intros f' Hf'. destruct (F2_in_r _ _ _ _ H2 Hf') as (f & Hf & T).
  eapply takes_finv; eauto. destruct HR as [_ HF]. rewrite Forall_forall in HF. now apply HF.
Qed.

Lemma map_sound c m : forall s x, Inv c s x -> implements (fields (rg s)) dwr drd bits dn ->
  (forall a m v, tidy (fields (rg s)) (fst a) -> tidy (fields (rg s)) (fst (fst (dwr a m v)))) ->
  (forall a m, tidy (fields (rg s)) (fst a) -> tidy (fields (rg s)) (fst (fst (fst (drd a m))))) ->
  via_ok (fields (rg s)) m -> in_file c = false -> snd (full_hdl_paths c) = 0%nat ->
  (forall f, In f (fields (rg s)) -> read_effect (access f) <> RUnreadable /\ read_effect (get_access f m) <> RUnreadable) ->
  exists s' x', access_map wr rd c s m = (s', [], true) /\ Inv c s' x' /\ map shape (fields (rg s')) = map shape (fields (rg s)) /\
    n_bits (rg s') = n_bits (rg s).
Proof.
  intros s x [Ih Iw Is Ig It Il] HI HTw HTr HV Hf Hp HRd. unfold access_map, write.
  assert (HPE : path_errs c = []) by (unfold path_errs; now rewrite Hp).
  assert (HUB : uses_back c true = true).
  { unfold uses_back. rewrite paths_has; [now rewrite orb_true_r|]. inversion Iw. discriminate. }
  change (uses_back c false) with false. cbn iota.
  (* the front door write *)
  unfold front_write. rewrite Ih. set (v := reg_get (rg s)).
  destruct (write_sync dwr drd bits dn (rg s) (x, rest s) m (Z.lnot v) HI HV Ig) as (r1 & E1 & n1 & sh1 & G1). rewrite E1.
  set (bv := Z.land (Z.lnot v) (Z.ones (n_bits (rg s)))) in *. 
  destruct (wr (sigs s, rest s) m bv) as [[t1 h1] ok1] eqn:EW. destruct (SEEN (sigs s) (rest s) m x Is) as [SW _].
  destruct (SW bv t1 h1 ok1 EW) as (x1 & D1 & X1 & S1). pose proof (i_wok _ _ _ _ _ HI (x, rest s) m bv) as OK1. rewrite D1 in OK1, G1. cbn in OK1, G1. subst ok1.
  pose proof (HTw (x, rest s) m bv It) as T1. rewrite D1 in T1. cbn [fst] in T1. cbn [is_ok negb].
  assert (W1 : whole t1 (fst (full_hdl_paths c)) [loc]) by (apply (whole_same (sigs s)); auto).
  assert (HN1 : 0 <= n_bits r1 /\ ready (fields r1)) by (split; apply G1). destruct HN1 as [HN1 HR1].
  assert (T1' : tidy (fields r1) x1) by (now apply (tidy_shape (fields (rg s)))).
  assert (L1 : layout (n_bits r1) (fields r1)) by (rewrite n1; eapply layout_shape; eauto).
  assert (Hx1 : x1 mod 2 ^ n_bits r1 = x1) by (eapply tidy_fits; eauto).
  (* the back door mirror *)
  unfold mirror, locked_read. rewrite HUB. cbn [held rg lock].
  destruct (back_read_ok c (St r1 t1 h1 true) [loc] x1) as (s2 & es2 & E2 & hh2 & rr2 & S2 & V2 & n2 & P2 & Ees); auto.
  { discriminate. }
  { constructor; auto. exists x1. auto. }
  cbn [rg sigs rest held] in *. cbv zeta in E2, P2, Ees. unfold lock. cbn [rg sigs rest]. rewrite E2.
  assert (RD1 : forall f, In f (fields r1) -> read_effect (access f) <> RUnreadable).
  { intros f Hf1. destruct (shapes_in _ _ f sh1 Hf1) as (g & Hg & E). apply shape_eq in E. destruct E as (_ & _ & <-). now apply HRd. }
  assert (SN : Z.land x1 (Z.lnot (wo_mask (fields r1))) = x1).
  { destruct (seen_bits (fields r1) x1 HR1) as (A & B). apply Z.bits_inj'. intros i Hi. destruct (coverb (fields r1) i) eqn:E.
    - apply coverb_true in E. destruct E as (f & Hf1 & Hc). rewrite (A f i Hf1 Hc).
      replace (is_in (access f) [WO; WOC; WOS; WO1]) with false; auto. specialize (RD1 f Hf1). destruct (access f); cbn in *; congruence.
    - apply B; auto. now apply coverb_false. }
  rewrite SN in *. destruct (sync_val r1 x1 h1 G1 T1') as [Eg Em]. rewrite Em, Eg, !check_refl, HPE in *.
  rewrite andb_false_r in Ees. cbn [app negb andb] in *.
  assert (Ees' : es2 = []) by (rewrite Ees; now destruct (_ =? _)). clear Ees. subst es2.
  destruct (takes_ready _ _ _ _ HR1 P2) as [HR2 sh2].
  replace (do_check (combine (fields (rg s2)) (nc c)) x1 x1 Backdoor) with true by (symmetry; apply check_refl).
  cbn [is_ok negb app]. 
  (* what the signal holds now *)
  assert (X2 : exists x2, signal (sigs s2) loc = Some x2 /\ x2 mod 2 ^ n_bits (rg s2) = x2).
  { destruct (after_read (fields r1) x1 =? x1) eqn:EA.
    - rewrite V2. exists x1. now rewrite n2.
    - exists (after_read (fields r1) x1). split; [apply V2; now left|]. rewrite n2. apply (tidy_fits _ (fields r1)); auto.
      destruct (after_read_bits (fields r1) x1 HR1) as (A & B). split.
      + apply Z.bits_iff_nonneg_ex. exists (n_bits r1). intros i Hi. destruct (coverb (fields r1) i) eqn:E.
        * apply coverb_true in E. destruct E as (f & Hf1 & Hc). destruct L1 as [L1 _]. rewrite Forall_forall in L1. destruct (L1 f Hf1). unfold covers in Hc. lia.
        * rewrite B by (try lia; now apply coverb_false). apply T1'; [lia|now apply coverb_false].
      + intros i Hi Hn. rewrite B by auto. now apply T1'. }
  destruct X2 as (x2 & X2 & M2).
  (* the back door write *)
  destruct (back_write_ok c (St (rg s2) (sigs s2) (rest s2) false) v [loc] x2) as (s3 & fv & E3 & hh3 & rr3 & S3 & V3 & _ & MO & n3 & P3); auto.
  { cbn. now rewrite n2. }
  { cbn. rewrite n2. eapply layout_shape; eauto. }
  { cbn. apply (whole_same t1); auto. }
  { discriminate. }
  { constructor; auto. exists x2. auto. }
  rewrite E3, HPE. cbn [app is_ok negb rg sigs rest] in *.
  destruct (takes_ready _ _ _ _ HR2 P3) as [HR3 sh3].
  assert (EQs : s3 = St (rg s3) (sigs s3) (rest s3) false) by (destruct s3; cbn in *; congruence).
  change (uses_back c false) with false. cbn iota. rewrite hh3.
  assert (sh30 : map shape (fields (rg s3)) = map shape (fields (rg s))) by congruence.
  assert (T3 : tidy (fields (rg s3)) fv).
  { apply (tidy_shape (fields (rg s2))); auto. destruct MO as (A & _ & B). split; auto. }
  assert (G3 : Good bits dn (rg s3) (fv, rest s3)).
  { split; [rewrite n3, n2, n1; apply Ig|]. split; auto. intros f' Hf'. destruct (F2_in_r _ _ _ _ P3 Hf') as (f & Hf2 & T).
    destruct T as (a1 & a2 & a3 & a4 & a5 & a6 & a7 & a8). split; auto. split.
    - intros Hwo. rewrite a6. cbn [orb snd]. destruct HV as [HV| ->].
      + exfalso. destruct (shapes_in _ _ f' sh30 Hf') as (g & Hg & E). apply shape_eq in E. destruct E as (_ & _ & E). apply (HV g Hg). now rewrite E.
      + rewrite rr3, rr2. pose proof (i_wdone _ _ _ _ _ HI (x, rest s) bv) as DD. rewrite D1 in DD. cbn in DD. now rewrite DD.
    - intros i Hc. cbn [fst]. unfold covers in Hc. rewrite a2. destruct a8 as [_ a8]. rewrite a8 by lia. f_equal. lia. }
  (* the front door mirror *)
  unfold front_read_, lock. cbn [rg sigs rest held].
  assert (X3 : signal (sigs s3) loc = Some fv) by (apply V3; now left).
  destruct (rd (sigs s3, rest s3) m) as [[[t4 h4] v4] ok4] eqn:ER. destruct (SEEN (sigs s3) (rest s3) m fv X3) as [_ SR].
  destruct (SR v4 t4 h4 ok4 ER) as (x4 & D4 & X4 & S4).
  assert (HI3 : implements (fields (rg s3)) dwr drd bits dn) by (eapply implements_shape; [symmetry; exact sh30|auto]).
  pose proof (i_rok _ _ _ _ _ HI3 (fv, rest s3) m) as OK4. rewrite D4 in OK4. cbn in OK4. subst ok4.
  destruct (sync_val (rg s3) fv (rest s3) G3 T3) as [Eg3 Em3].
  assert (V4 : v4 = fv).
  { apply Z.bits_inj'. intros i Hi. destruct (coverb (fields (rg s3)) i) eqn:E.
    - apply coverb_true in E. destruct E as (f & Hf3 & Hc). pose proof (i_seen _ _ _ _ _ HI3 (fv, rest s3) m f i Hf3 Hc) as B.
      rewrite D4 in B. apply B. destruct (shapes_in _ _ f sh30 Hf3) as (g & Hg & E). rewrite <- (shape_access g f m E). now apply HRd.
    - assert (HNc := proj1 (coverb_false _ _) E). pose proof (i_unused _ _ _ _ _ HI3 (fv, rest s3) m i Hi HNc) as B. rewrite D4 in B. cbn in B. rewrite B.
      symmetry. now apply T3. }
  subst v4. rewrite Eg3, Em3, check_refl. rewrite !andb_false_r. cbn [negb].
  pose proof (read_sync dwr drd bits dn (rg s3) (fv, rest s3) m HI3 G3) as RS. cbv zeta in RS. rewrite D4 in RS. cbn [fst snd] in RS.
  destruct RS as (n4 & sh4 & G4).
  replace (do_check (combine (fields (reg_read (rg s3) fv m)) (nc c)) fv fv m) with true by (symmetry; apply check_refl).
  cbn [is_ok negb app andb rg]. rewrite ?check_refl. cbn [negb app]. eexists _, x4. split; [reflexivity|]. cbn [rg sigs rest held].
  assert (sh40 : map shape (fields (reg_read (rg s3) fv m)) = map shape (fields (rg s))) by congruence.
  split; [|split; [auto|congruence]]. constructor; cbn [rg sigs rest held]; auto.
  - apply (whole_same (sigs s3)); auto. apply (whole_same (sigs s2)); auto. apply (whole_same t1); auto.
  - apply (tidy_shape (fields (rg s))); auto. pose proof (HTr (fv, rest s3) m) as T4. rewrite D4 in T4. apply T4.
    cbn [fst]. apply (tidy_shape (fields (rg s3))); auto.
  - rewrite n4, n3, n2, n1. eapply layout_shape; eauto. apply G4.
Qed.
End Test.

(** ** Read/write registers, any design *)
Lemma check_plain fs e a m : Forall (fun x : field * bool => snd x = false) fs -> do_check fs e a m = (a =? e).
Proof.
  intros HF. unfold do_check. replace (fold_left _ fs 0) with 0; [now rewrite !Z.lor_0_r|].
  symmetry. induction fs as [|[f b] fs IH]; auto. apply Forall_cons_iff in HF. destruct HF as [H1 H2]. cbn in H1. subst b. cbn. auto.
Qed.
Lemma combine_false fs ncs : Forall (eq false) ncs -> Forall (fun x : field * bool => snd x = false) (combine fs ncs).
Proof. intros HF. apply Forall_forall. intros [f b] Hx. apply in_combine_r in Hx. rewrite Forall_forall in HF. symmetry. now apply HF. Qed.
Lemma RW_both r : RWreg r -> reg_get_mirrored r = reg_get r.
Proof.
  intros [_ HF]. unfold reg_get_mirrored, reg_get, compose. generalize 0. induction (fields r) as [|f fs IH]; intros z; auto.
  apply Forall_cons_iff in HF. destruct HF as [(_ & E & _) HF]. cbn. rewrite E. now apply IH.
Qed.
Lemma RW_takes v b r fs' k : RWreg r -> n_bits k = n_bits r -> fields k = fs' -> Forall2 (takes v b) (fields r) fs' ->
  RWreg k /\ map shape fs' = map shape (fields r) /\ reg_get k = keep (fields r) v.
Proof.
  intros HR En Ef H2. assert (HP := RW_pos r HR). destruct (takes_ready _ _ _ _ (proj1 HR) H2) as [HR2 HS]. subst fs'.
  assert (RW2 : RWreg k).
  { split; auto. apply Forall_forall. intros f' Hf'. destruct (F2_in_r _ _ _ _ H2 Hf') as (f & Hf & (a1 & a2 & a3 & _ & _ & _ & a7 & _)).
    destruct HR as [_ HF]. rewrite Forall_forall in HF. destruct (HF f Hf) as (b1 & b2 & b3). rewrite a1, a2, a3, En. auto. }
  split; auto. split; auto. destruct (ready_get k (proj1 RW2)) as (_ & G1 & G2). apply Z.bits_inj'. intros i Hi. rewrite keep_bit by auto.
  rewrite <- (coverb_shape _ _ i HS). destruct (coverb (fields k) i) eqn:E; cbn [andb].
  - apply coverb_true in E. destruct E as (f' & Hf' & Hc). rewrite (G1 f' i Hf' Hc).
    destruct (F2_in_r _ _ _ _ H2 Hf') as (f & Hf & (a1 & a2 & _ & _ & _ & _ & a7 & a8 & a9)). unfold covers in Hc. rewrite a7, a9 by lia. f_equal. lia.
  - apply G2; auto. now apply coverb_false.
Qed.
Lemma RW_no_wo r : RWreg r -> wo_mask (fields r) = 0.
Proof.
  intros [_ HF]. unfold wo_mask. induction (fields r) as [|f fs IH]; auto. apply Forall_cons_iff in HF. destruct HF as [(E & _) HF].
  cbn [fold_left get_access]. rewrite E. cbn. auto.
Qed.
Lemma RW_no_after r v : RWreg r -> after_read (fields r) v = v.
Proof.
  intros [_ HF]. unfold after_read. induction (fields r) as [|f fs IH]; auto. apply Forall_cons_iff in HF. destruct HF as [(E & _) HF].
  cbn [fold_left get_access]. rewrite E. cbn. auto.
Qed.
Lemma RW_layout r : RWreg r -> layout (n_bits r) (fields r).
Proof.
  intros HR. split; [|apply chain_disjoint; apply HR]. assert (HP := RW_pos r HR). destruct HR as [_ HF]. rewrite Forall_forall in *.
  intros f Hf. destruct (HF f Hf) as (_ & _ & L). destruct (HP f Hf). auto.
Qed.

Section Exact.
Context {H : Type} (wr : @D H -> via -> Z -> @D H * bool) (rd : @D H -> via -> @D H * Z * bool).
Context (dwr : Z * H -> via -> Z -> (Z * H) * bool) (drd : Z * H -> via -> (Z * H) * Z * bool) (loc : list string).
Hypothesis SEEN : seen_as loc wr rd dwr drd.
Notation m := (Map RtRW).
Lemma map_exact c (s : st H) x x1 h1 ok1 x4 h4 v4 ok4 :
  RWreg (rg s) -> 0 <= n_bits (rg s) -> held s = false -> in_file c = false -> snd (full_hdl_paths c) = 0%nat ->
  whole (sigs s) (fst (full_hdl_paths c)) [loc] -> signal (sigs s) loc = Some x -> Forall (eq false) (nc c) -> dmap c = m ->
  let v := reg_get (rg s) in let bv := Z.land (Z.lnot v) (Z.ones (n_bits (rg s))) in
  dwr (x, rest s) m bv = ((x1, h1), ok1) -> drd (v, h1) m = ((x4, h4), v4, ok4) ->
  exists s' es b, access_map wr rd c s m = (s', es, b) /\
   (es = [] /\ b = true <-> ok1 = true /\ x1 mod 2 ^ n_bits (rg s) = keep (fields (rg s)) bv /\ ok4 = true /\ v4 = v).
Proof.
  intros HR Hn Hh Hf Hp HW Hs Hnc Hd v bv E1 E4. unfold access_map, write. change (uses_back c false) with false. cbn iota. fold v.
  assert (HUB : uses_back c true = true).
  { unfold uses_back. rewrite paths_has; [now rewrite orb_true_r|]. inversion HW. discriminate. }
  assert (HPE : path_errs c = []) by (unfold path_errs; now rewrite Hp).
  unfold front_write. rewrite Hh. destruct (RW_write (rg s) (Z.lnot v) Hn HR) as (r1 & W1 & n1 & sh1 & R1 & g1). rewrite W1. fold bv. fold bv in g1.
  destruct (wr (sigs s, rest s) m bv) as [[t1 h1'] ok1'] eqn:EW. destruct (SEEN (sigs s) (rest s) m x Hs) as [SW _].
  destruct (SW bv t1 h1' ok1' EW) as (x1' & D1 & X1 & S1). rewrite E1 in D1. injection D1 as <- <- <-.
  destruct ok1; cbn [is_ok negb]; [|eexists _, _, _; split; [reflexivity|]; intuition discriminate].
  unfold mirror, locked_read. rewrite HUB. cbn [held rg lock]. unfold lock at 1. cbn [rg sigs rest].
  assert (W1' : whole t1 (fst (full_hdl_paths c)) [loc]) by (apply (whole_same (sigs s)); auto).
  destruct (back_read_ok c (St r1 t1 h1 true) [loc] (x1 mod 2 ^ n_bits r1)) as (s2 & es2 & E2 & hh2 & rr2 & S2 & V2 & n2 & P2 & Ees); cbn [rg sigs rest held] in *; auto.
  { apply R1. } { now rewrite n1. } { discriminate. } { constructor; auto. exists x1. auto. }
  cbv zeta in E2, P2, Ees. rewrite (RW_no_wo r1 R1), (RW_no_after r1 _ R1), Z.lnot_0, Z.land_m1_r in *. rewrite Z.eqb_refl in *. rewrite E2.
  assert (CP : forall fs e a k, do_check (combine fs (nc c)) e a k = (a =? e)) by (intros; apply check_plain, combine_false; auto).
  rewrite !CP in *. rewrite (RW_both r1 R1), g1, HPE in *. cbn [app andb] in *. rewrite n1 in *.
  set (y := x1 mod 2 ^ n_bits (rg s)) in *. cbn [is_ok negb].
  destruct (back_write_ok c (lock s2 false) v [loc] y) as (s3 & fv & E3 & hh3 & rr3 & S3 & V3 & _ & MO & n3 & P3); cbn [lock rg sigs rest held]; auto.
  { apply (takes_ready y false (fields r1)); auto. apply R1. } { now rewrite n2. }
  { destruct (RW_takes y false r1 (fields (rg s2)) (rg s2)) as (R2 & _); auto; [congruence|]. now apply RW_layout. }
  { apply (whole_same t1); auto. }
  { discriminate. }
  { constructor; auto. exists x1. rewrite V2, n2. auto. }
  rewrite E3, HPE. cbn [app is_ok negb rg sigs rest lock] in *.
  destruct (RW_takes y false r1 (fields (rg s2)) (rg s2)) as (R2 & sh2 & _); auto; [congruence|].
  destruct (RW_takes fv true (rg s2) (fields (rg s3)) (rg s3)) as (R3 & sh3 & g3); auto.
  assert (FV : fv = v).
  { destruct MO as (M0 & M1 & M2). apply Z.bits_inj'. intros i Hi. destruct (coverb (fields (rg s2)) i) eqn:EC.
    - apply coverb_true in EC. destruct EC as (f & Hf2 & Hc). rewrite (M1 f i Hf2 Hc), Hd. cbn [get_access].
      destruct R2 as [_ R2]. rewrite Forall_forall in R2. destruct (R2 f Hf2) as (-> & _). reflexivity.
    - rewrite M2 by (auto; now apply coverb_false). symmetry. apply (ready_get (rg s) (proj1 HR)); auto. apply coverb_false.
      rewrite <- EC. apply coverb_shape. congruence. }
  subst fv. assert (g3' : reg_get (rg s3) = v).
  { rewrite g3. unfold v. rewrite <- (keep_get (rg s) HR) at 2. apply keep_shape. congruence. }
  change (uses_back c false) with false. cbn iota. rewrite hh3. unfold front_read_, lock. cbn [rg sigs rest held]. rewrite (RW_both _ R3), g3'.
  assert (X3 : signal (sigs s3) loc = Some v) by (apply V3; now left).
  destruct (rd (sigs s3, rest s3) m) as [[[t4 h4'] v4'] ok4'] eqn:ER. destruct (SEEN (sigs s3) (rest s3) m v X3) as [_ SR].
  destruct (SR v4' t4 h4' ok4' ER) as (x4' & D4 & X4 & S4). rewrite rr3, rr2, E4 in D4. injection D4 as <- <- <- <-.
  rewrite !CP. cbn [andb]. eexists _, _, _. split; [reflexivity|]. cbn [is_ok]. rewrite Ees.
  destruct (Z.eqb_spec y (keep (fields (rg s)) bv)) as [EY|EY]; cbn [negb andb app]; rewrite ?andb_false_r, ?andb_true_r; cbn [app].
  - destruct (Z.eqb_spec v4 v) as [EV|EV]; cbn [negb andb app]; rewrite ?andb_false_r, ?andb_true_r; cbn [app].
    + destruct ok4; intuition discriminate.
    + split; [|intuition congruence]. intros [X _]. destruct (fcheck c && ok4); discriminate X.
  - split; [|intuition congruence]. intros [X _]. destruct (bcheck c); discriminate X.
Qed.
End Exact.

(** ** Which registers are tested *)
Lemma known_iff p : known p = true <-> p <> NOACCESS /\ forall n, p <> USER n.
Proof.
  destruct p; cbn; split; try (intros; split; congruence); try discriminate; try reflexivity.
  - intros [X _]. congruence.
  - intros [_ X]. now specialize (X n).
Qed.
Lemma skipped_iff fs ms : skipped fs ms = false <-> tested fs ms.
Proof.
  induction ms as [|m ms IH]; cbn [skipped].
  - split; auto. intros _ m [].
  - rewrite !orb_false_iff, negb_false_iff, IH, forallb_forall. split.
    + intros ((A & B) & C) k [<-|Hk]; [|now apply C]. split.
      * apply not_true_iff_false in B. rewrite forallb_forall in B. clear -B. induction fs as [|f fs IH].
        -- exfalso. apply B. intros f [].
        -- destruct (is_in (get_access f m) [RO]) eqn:E.
           ++ destruct IH as (g & Hg & Ng); [|exists g; split; [now right|auto]]. intros X. apply B. intros g [<-|Hg]; auto.
           ++ exists f. split; [now left|]. intros X. rewrite X in E. discriminate.
      * intros f Hf. apply known_iff. now apply A.
    + intros HT. split; [split|].
      * intros f Hf. apply known_iff. now apply (HT m (or_introl eq_refl)).
      * apply not_true_iff_false. rewrite forallb_forall. intros X. destruct (HT m (or_introl eq_refl)) as [(f & Hf & Nf) _].
        specialize (X f Hf). destruct (get_access f m); try discriminate X. congruence.
      * intros k Hk. apply HT. now right.
Qed.

(** ** Write-only fields *)
Lemma F2_in_l {A} (P : A -> A -> Prop) l l' x : Forall2 P l l' -> In x l -> exists y, In y l' /\ P x y.
Proof. induction 1 as [|a b l l' HP _ IH]; [intros []|]. intros [<-|Hx]; [exists b; split; [now left|auto]|]. destruct (IH Hx) as (y & Hy & Py). exists y. split; [now right|auto]. Qed.
Lemma combine_shape_in : forall fs fs' (ncs : list bool) g' b, map shape fs' = map shape fs -> In (g', b) (combine fs' ncs) ->
  exists g, In (g, b) (combine fs ncs) /\ shape g = shape g'.
Proof.
  induction fs as [|f fs IH]; intros [|f' fs'] ncs g' b E; try discriminate; [intros []|]. cbn [map] in E.
  assert (E1 : shape f' = shape f) by congruence. assert (E2 : map shape fs' = map shape fs) by congruence.
  destruct ncs as [|b0 ncs]; [intros []|]. cbn [combine]. intros [[= <- <-]|Hi].
  - exists f. split; [now left|auto].
  - destruct (IH fs' ncs g' b E2 Hi) as (g & Hg & Eg). exists g. split; [now right|auto].
Qed.
Section WriteOnly.
Context {H : Type} (wr : @D H -> via -> Z -> @D H * bool) (rd : @D H -> via -> @D H * Z * bool).
Lemma map_wo c (s : st H) f i s' es b : ready (fields (rg s)) -> 0 <= n_bits (rg s) -> uses_back c true = true ->
  In f (fields (rg s)) -> access f = WO -> covers f i -> i < n_bits (rg s) -> Z.testbit (desired f) (i - lsb f) = false ->
  (forall g, In (g, true) (combine (fields (rg s)) (nc c)) -> ~ covers g i) ->
  access_map wr rd c s (Map RtRW) = (s', es, b) -> es <> [] \/ b = false.
Proof.
  intros HR Hn HUB Hf Ha Hc Hin Hz Hnc. unfold access_map, write. change (uses_back c false) with false. cbn iota.
  unfold front_write. destruct (held s); [cbn; intros [= <- <- <-]; now right|].
  assert (Hl : 0 <= lsb f /\ 0 < size f) by (destruct HR as [_ HF]; rewrite Forall_forall in HF; destruct (HF f Hf) as [[X _] Y]; auto).
  assert (Hi0 : 0 <= i) by (unfold covers in Hc; lia).
  set (v := reg_get (rg s)). assert (Hv : Z.testbit v i = false).
  { destruct (ready_get (rg s) HR) as (_ & G & _). unfold v. now rewrite (G f i Hf Hc). }
  destruct (write_full (rg s) (Z.lnot v) (Map RtRW) Hn HR) as (r1 & W1 & n1 & F1). rewrite W1. set (bv := Z.land (Z.lnot v) _) in *.
  assert (sh1 : map shape (fields r1) = map shape (fields (rg s))).
  { apply (F2_shape (fun _ _ => True)). eapply F2_impl; [|exact F1]. cbn. tauto. }
  assert (HR1 : ready (fields r1)).
  { eapply ready_next; eauto. apply Forall_forall. intros g' Hg'. destruct (F2_in_r _ _ _ _ F1 Hg') as (g & _ & _ & X & _). auto. }
  destruct (F2_in_l _ _ _ _ F1 Hf) as (f1 & Hf1 & Wf & _ & Sf). 
  assert (Hm : Z.testbit (reg_get_mirrored r1) i = true).
  { destruct (ready_mirrored r1 HR1) as (_ & G & _). assert (Hc1 : covers f1 i) by (eapply shape_covers; [|exact Hc]; auto).
    rewrite (G f1 i Hf1 Hc1). destruct Wf as (w1 & w2 & w3 & w4 & w5 & w6 & w7 & w8 & w9). rewrite w2. unfold covers in Hc. rewrite w9 by lia.
    cbn [get_access]. rewrite Ha. cbn. replace (i - lsb f + lsb f) with i by lia. unfold bv.
    rewrite Z.land_spec, Z.lnot_spec, Hv, ones_bit by lia. reflexivity. }
  destruct (wr (sigs s, rest s) (Map RtRW) bv) as [[t1 h1] ok1]. destruct ok1; cbn [is_ok negb]; [|intros [= <- <- <-]; now right].
  unfold mirror, locked_read. rewrite HUB. cbn [held rg lock].
  destruct (back_read_ c (lock (St r1 t1 h1 false) true)) as [[s2 o2] e2] eqn:EB.
  destruct o2 as [ok v2| |]; cbn [is_ok negb]; try (intros [= <- <- <-]; now right).
  destruct ok; cbn [is_ok negb]; [|intros [= <- <- <-]; now right].
  assert (BR : Z.testbit v2 i = false /\ map shape (fields (rg s2)) = map shape (fields r1)).
  { unfold back_read_ in EB. cbn [lock rg sigs held] in EB. destruct (in_file c); [discriminate|].
    destruct (read_paths t1 (n_bits r1) true 0 (rw_paths c)) as [w|w|]; try discriminate.
    destruct (if after_read (fields r1) w =? w then (t1, false) else write_paths t1 (after_read (fields r1) w) (rw_paths c)) as [t2 xx].
    destruct xx; [discriminate|]. injection EB as <- <- _. split.
    - destruct (seen_bits (fields r1) w HR1) as [B _]. assert (Hc1 : covers f1 i) by (eapply shape_covers; [|exact Hc]; auto).
      rewrite (B f1 i Hf1 Hc1). apply shape_eq in Sf. destruct Sf as (_ & _ & ->). now rewrite Ha.
    - cbn [upd rg]. set (q := Z.land w _). destruct (back_predict r1 q PRead) as (P1 & P2); [discriminate|auto|].
      exact (proj2 (takes_ready _ _ _ _ HR1 P2)). }
  destruct BR as [B1 B2].
  assert (CK : do_check (combine (fields (rg s2)) (nc c)) (reg_get_mirrored r1) v2 Backdoor = false).
  { apply not_true_iff_false. intros X. assert (HPos : Forall (fun x : field * bool => 0 < size (fst x) /\ 0 <= lsb (fst x)) (combine (fields (rg s2)) (nc c))).
    { apply Forall_forall. intros [g bb] Hg. apply in_combine_l in Hg. destruct (shapes_in _ _ g B2 Hg) as (g1 & Hg1 & Eg). apply shape_eq in Eg.
      destruct HR1 as [_ HF1]. rewrite Forall_forall in HF1. destruct (HF1 g1 Hg1) as [[Y _] Y2]. destruct Eg as (q1 & q2 & _). cbn. rewrite <- q1, <- q2. auto. }
    rewrite (do_check_ok _ _ _ _ HPos) in X. rewrite X in B1; [congruence|auto|].
    intros g Hg Hcg. destruct (combine_shape_in (fields (rg s)) (fields (rg s2)) (nc c) g true) as (g0 & Hg0 & Eg); [congruence|auto|].
    apply (Hnc g0 Hg0). eapply shape_covers; [|exact Hcg]. auto. }
  rewrite CK. cbn [negb andb]. intros E. left. intros ->.
  match type of E with (let (_, _) := ?X in _) = _ => destruct X as [[s3 o3] e3] end. destruct (negb (is_ok o3)).
  - injection E as _ E _. destruct e2; discriminate E.
  - match type of E with (let (_, _) := ?X in _) = _ => destruct X as [[s4 o4] e4] end. injection E as _ E _. destruct e2; discriminate E.
Qed.
End WriteOnly.

(** ** Calls that cannot work *)
Section Calls_.
Context {H : Type} (wr : @D H -> via -> Z -> @D H * bool) (rd : @D H -> via -> @D H * Z * bool).
Lemma raise_held c (s : st H) x s1 es : do_call wr rd c s x = (s1, Raises, es) -> held s1 = true.
Proof.
  assert (LR : forall b k m, locked_read rd c s b k m = (s1, Raises, es) -> held s1 = true).
  { intros b k m. unfold locked_read. destruct (held s) eqn:Eh; [discriminate|].
    assert (BH : forall y o e, (if uses_back c b then back_read_ c (lock s true) else front_read_ rd c (lock s true) m) = (y, o, e) -> held y = true).
    { intros y o e. destruct (uses_back c b).
      - unfold back_read_. cbn [lock rg sigs held]. destruct (in_file c); [now intros [= <- _ _]|].
        destruct (read_paths _ _ _ _ _); try (now intros [= <- _ _]). destruct (if _ =? _ then _ else _) as [t xx]. destruct xx; now intros [= <- _ _].
      - unfold front_read_. destruct (rd _ _) as [[[t h] v] ok]. now intros [= <- _ _]. }
    destruct (if uses_back c b then _ else _) as [[y o] e] eqn:E. specialize (BH y o e eq_refl). destruct o; try discriminate.
    intros [= <- _]. auto. }
  destruct x as [b v m|b m|b k m]; cbn [do_call].
  - unfold write. destruct (uses_back c b).
    + unfold back_write. destruct (held s); [discriminate|]. destruct (in_file c); [now intros [= <- _]|].
      destruct (read_paths _ _ _ _ _) as [cur|cur|]; try discriminate; [|now intros [= <- _]].
      destruct (write_paths _ _ _) as [t xx]. destruct xx; [now intros [= <- _]|discriminate].
    + unfold front_write. destruct (held s); [discriminate|]. destruct (reg_write _ _ _). destruct (wr _ _ _) as [[t h] ok]. discriminate.
  - apply LR.
  - apply LR.
Qed.
Lemma held_hangs c (s : st H) x : held s = true -> do_call wr rd c s x = (s, Hangs, []).
Proof.
  intros Hh. destruct x as [b v m|b m|b k m]; cbn [do_call].
  - unfold write, back_write, front_write. rewrite Hh. now destruct (uses_back c b).
  - unfold read, locked_read. now rewrite Hh.
  - unfold mirror, locked_read. now rewrite Hh.
Qed.
Lemma sliced_raises t : forall con v, Exists (fun s => 0 <= soff s) con -> read_concat t v con = None.
Proof.
  induction con as [|s con IH]; intros v HE; [inversion HE|]. cbn [read_concat]. destruct (soff s <? 0) eqn:E; auto.
  inversion HE as [? ? X|]; subst; [lia|]. destruct (peek t (spath s)); auto.
Qed.
Lemma read_raises c (s : st H) x con ps : by_back x = true -> held s = false -> in_file c = false ->
  fst (full_hdl_paths c) = con :: ps -> (forall v, read_concat (sigs s) v con = None) ->
  exists s1 es, do_call wr rd c s x = (s1, Raises, es) /\ sigs s1 = sigs s /\ rest s1 = rest s.
Proof.
  intros Hb Hh Hi HP HC. assert (HUB : uses_back c true = true) by (unfold uses_back; rewrite paths_has; [now rewrite orb_true_r|congruence]).
  assert (LR : forall k m, exists s1 es, locked_read rd c s true k m = (s1, Raises, es) /\ sigs s1 = sigs s /\ rest s1 = rest s).
  { intros k m. unfold locked_read. rewrite Hh, HUB. unfold back_read_. rewrite Hi. unfold rw_paths. rewrite HP. cbn [read_paths lock sigs].
    rewrite HC. eexists _, _. split; [reflexivity|auto]. }
  destruct x as [b v m|b m|b k m]; cbn in Hb; subst b; cbn [do_call].
  - unfold write. rewrite HUB. unfold back_write. rewrite Hh, Hi. unfold rw_paths. rewrite HP. cbn [read_paths]. rewrite HC.
    eexists _, _. split; [reflexivity|auto].
  - apply LR.
  - apply LR.
Qed.
Lemma nothing_written c (s : st H) v : ready (fields (rg s)) -> layout (n_bits (rg s)) (fields (rg s)) ->
  held s = false -> in_file c = false -> fst (full_hdl_paths c) = [] ->
  exists r' fv, back_write c s v = (St r' (sigs s) (rest s) false, Done true fv, path_errs c ++ path_errs c) /\
    made_of (fields (rg s)) fv (fun f i => write_bit (write_effect (get_access f (dmap c))) (written f) (Z.testbit v i) (Z.testbit v i)) /\
    Forall2 (takes fv true) (fields (rg s)) (fields r').
Proof.
  intros HR HL Hh Hi HP. unfold back_write. rewrite Hh, Hi. rewrite (pre_write _ _ HR). unfold rw_paths. rewrite HP. cbn [read_paths write_paths].
  destruct (set_ready (rg s) v HR) as [HR2 HS2]. set (bv := Z.land v (Z.ones (n_bits (rg s)))). set (r := reg_set (rg s) v) in *.
  set (fv := merge c (fields r) bv bv). eexists _, fv. split; [reflexivity|]. split.
  { destruct (merge_ok c (fields r) bv bv HR2) as (M0 & M1 & M2). split; auto. split.
    - intros f i Hf Hc. unfold fv. rewrite (M1 (f_set f (slice v f)) i).
      + assert (HL1 := proj1 HL). rewrite Forall_forall in HL1. destruct (HL1 f Hf) as (L1 & L2 & L3). unfold covers in Hc.
        unfold bv. rewrite Z.land_spec, ones_bit, andb_true_r by lia. reflexivity.
      + apply in_map_iff. exists f. auto.
      + exact Hc.
    - intros i Hi0 Hnc. apply M2; auto. intros f Hf Hc. apply in_map_iff in Hf. destruct Hf as (g & <- & Hg). exact (Hnc g Hg Hc). }
  destruct (back_predict r fv PWrite) as (P1 & P2); [discriminate|auto|].
  cbn iota in P2. cbn [r reg_set with_fields fields] in P2. clear -P2. fold r in P2.
  remember (fields (fst (reg_predict r fv PWrite BackPath Backdoor (-1)))) as l'. clear Heql'. clearbody fv. revert l' P2.
  induction (fields (rg s)) as [|f fs IH]; intros l' P2; inversion P2; subst; constructor; auto.
Qed.
Lemma nothing_read c (s : st H) : ready (fields (rg s)) -> in_file c = false -> fst (full_hdl_paths c) = [] ->
  exists r' es, back_read_ c s = (upd s r' (sigs s) (held s), Done true 0, es) /\ Forall2 (takes 0 false) (fields (rg s)) (fields r').
Proof.
  intros HR Hi HP. unfold back_read_. rewrite Hi. unfold rw_paths. rewrite HP. cbn [read_paths write_paths].
  destruct (back_predict (rg s) 0 PRead) as (P1 & P2); [discriminate|auto|]. rewrite Z.land_0_l.
  destruct (_ =? 0); eexists _, _; (split; [reflexivity|exact P2]).
Qed.
End Calls_.

(** ** Designs made from a register and a tree of signals *)
Definition lift_wr {H} (loc : list string) (dwr : Z * H -> via -> Z -> (Z * H) * bool) (d : @D H) (m : via) (v : Z) : @D H * bool :=
  match signal (fst d) loc with
  | Some x => let '((x', h'), ok) := dwr (x, snd d) m v in
              match put_at (fst d) loc x' with Some t' => ((t', h'), ok) | None => (d, false) end
  | None => (d, false)
  end.
Definition lift_rd {H} (loc : list string) (drd : Z * H -> via -> (Z * H) * Z * bool) (d : @D H) (m : via) : @D H * Z * bool :=
  match signal (fst d) loc with
  | Some x => let '((x', h'), v, ok) := drd (x, snd d) m in
              match put_at (fst d) loc x' with Some t' => ((t', h'), v, ok) | None => (d, 0, false) end
  | None => (d, 0, false)
  end.
Lemma found_self : forall loc t u, get t loc = Some u -> found t loc = loc /\ walk t loc = u.
Proof.
  induction loc as [|n loc IH]; intros t u E; [cbn in *; split; congruence|]. cbn [found walk]. rewrite kid_get.
  destruct (get t [n]) as [t'|] eqn:En; [|rewrite (get_none _ _ _ En) in E; discriminate]. rewrite (get_cons _ _ _ _ En) in E.
  destruct (IH t' u E) as [-> ->]. auto.
Qed.
Lemma lift_seen {H} loc dwr drd : @seen_as H loc (lift_wr loc dwr) (lift_rd loc drd) dwr drd.
Proof.
  intros t h m x Hx. assert (PUT : forall y, exists t', put_at t loc y = Some t' /\ same t t' /\ signal t' loc = Some y).
  { intros y. unfold signal in Hx. destruct (get t loc) as [u|] eqn:Eg; [|discriminate]. destruct u as [z|]; [|discriminate].
    destruct (found_self loc t _ Eg) as [F W]. destruct (put_ok y loc t z W) as (t' & E & A & B & _). rewrite F in B. eauto. }
  unfold lift_wr, lift_rd. cbn [fst snd]. rewrite Hx. split.
  - intros v t' h' ok. destruct (dwr (x, h) m v) as [[x' h2] ok2]. destruct (PUT x') as (t2 & -> & A & B). intros [= <- <- <-].
    exists x'. auto.
  - intros v t' h' ok. destruct (drd (x, h) m) as [[[x' h2] v2] ok2]. destruct (PUT x') as (t2 & -> & A & B). intros [= <- <- <- <-].
    exists x'. auto.
Qed.
