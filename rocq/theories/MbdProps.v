(** C217, C218, C219: back door accesses to memories. *)
From Coq Require Import ZArith List Bool Arith String Lia.
From Verif Require Import HdlModel HdlSpec HdlProofs HdlProps MbdModel MbdSpec MbdProofs.
Import ListNotations.
Open Scope Z_scope.

Lemma abstraction_kind c kind k : abstraction c kind k -> mkind c kind = k.
Proof.
  unfold mkind. intros [[N ->]|[-> H]]; [destruct (String.eqb_spec kind ""); congruence|]. cbn. now apply nearest_kind.
Qed.
(** C217: the paths of a memory *)
Theorem C217_paths c kind k : abstraction c kind k -> Forall (clear_paths k) (mblocks c) ->
  forall con, In con (fst (mem_paths c kind)) <-> path_of c k con.
Proof.
  intros HA HC con. unfold mem_paths, path_of. rewrite (abstraction_kind c kind k HA). destruct (lookup k (mpaths c)) as [own|] eqn:E.
  2: { cbn. split; [tauto|]. intros (own & con0 & ps & X & _). congruence. }
  pose proof (C166_block k "." (mblocks c) HC) as HB. destruct (block_paths k "." (mblocks c)) as [par e]. cbn [fst] in *.
  rewrite in_flat_map. split.
  - intros (con0 & I0 & I1). apply in_map_iff in I1 as (x & <- & Ix). apply HB in Ix as (Nx & ps & P1 & P2). exists own, con0, ps.
    repeat split; auto; [congruence|]. rewrite P2. apply map_ext. intros s. apply below_eq.
  - intros (own' & con0 & ps & E' & I0 & P1 & P2 & ->). injection E' as <-. exists con0. split; auto. apply in_map_iff. exists (full "." ps). split.
    + apply map_ext. intros s. apply below_eq.
    + apply HB. eauto.
Qed.
Theorem C217_errors c kind k : abstraction c kind k ->
  (snd (mem_paths c kind) = 0%nat <-> lookup k (mpaths c) <> None /\ ~ misses k (mblocks c)) /\
  (snd (mem_paths c kind) <> 0%nat -> snd (mem_paths c kind) = 1%nat).
Proof.
  intros HA. unfold mem_paths. rewrite (abstraction_kind c kind k HA). destruct (lookup k (mpaths c)) as [own|] eqn:E.
  - destruct (block_errs k "." (mblocks c)) as [[E1 M]|[E1 M]]; destruct (block_paths k "." (mblocks c)) as [par e]; cbn [snd] in *; subst e.
    + split; [|congruence]. split; [intros _; split; [discriminate|auto]|auto].
    + split; [|auto]. split; [discriminate|]. intros [_ X]. tauto.
  - cbn. split; [|auto]. split; [discriminate|]. intros [X _]. congruence.
Qed.
(** A back door write puts into the element of every slice of every path its part of the value,
    one element after the other, and changes nothing else. *)
Theorem C217_write c t kind off vals ws : writes t (fst (mem_paths c kind)) off vals ws ->
  exists t', backdoor_write c t kind off vals = (t', true, snd (mem_paths c kind)) /\
    (forall l j, word t' l j = option_map (after ws l j) (word t l j)) /\ (forall l, signal t' l = signal t l) /\ (forall l, get t' l = None <-> get t l = None).
Proof.
  intros W. unfold backdoor_write. destruct (mem_paths c kind) as [ps e]. cbn [fst snd] in *.
  destruct (deposits_ok _ _ _ (jobs_ok _ _ _ _ _ W)) as (t' & E & HS & HW & HG). exists t'. rewrite E. repeat split; auto; apply HS.
Qed.
(** poke() of whole elements *)
Lemma whole_writes t ps locs off v : whole t ps locs -> (forall l, In l locs -> word t l off <> None) -> writes t ps off [v] (map (fun l => (l, off, v)) locs).
Proof.
  intros W HD. rewrite <- (app_nil_r (map _ locs)). constructor; [|constructor].
  induction W as [|con loc ps locs (s & -> & Hs & HL) W IH]; [constructor|]. cbn [List.concat app map]. constructor; [|apply IH; intros l I; apply HD; now right].
  destruct (word t loc off) as [x|] eqn:E; [|destruct (HD loc); [now left|auto]]. exists loc, v, x. split; [reflexivity|]. split; [exact HL|]. split; [exact E|]. split; [auto|lia].
Qed.
Lemma after_all off v locs l j x : after (map (fun l => (l, off, v)) locs) l j x = if existsb (fun a => if list_eq_dec string_dec a l then Nat.eqb off j else false) locs then v else x.
Proof.
  revert x. induction locs as [|a locs IH]; intros x; [reflexivity|]. cbn [map after existsb]. rewrite IH.
  destruct (list_eq_dec string_dec a l), (Nat.eqb off j), (existsb _ locs); reflexivity.
Qed.
Theorem C217_poke c t kind k off v locs : user c = false -> 0 < width c -> abstraction c kind k -> lookup k (mpaths c) <> None ->
  whole t (fst (mem_paths c kind)) locs -> (forall l, In l locs -> word t l off <> None) ->
  exists t', poke c t kind off v = (t', Returned true [] (snd (mem_paths c kind))) /\
    (forall l, In l locs -> word t' l off = Some (v mod 2 ^ width c)) /\
    (forall l j, ~ In l locs \/ j <> off -> word t' l j = word t l j) /\ (forall l, signal t' l = signal t l) /\ (forall l, get t' l = None <-> get t l = None).
Proof.
  intros HU HN HA HP W HD. unfold poke, has_path. rewrite (abstraction_kind c kind k HA), HU. destruct (lookup k (mpaths c)) as [own|]; [|congruence]. cbn [negb andb].
  rewrite mask_mod by lia. destruct (C217_write c t kind off _ _ (whole_writes t _ locs off (v mod 2 ^ width c) W HD)) as (t' & E & HW & HG & HS). rewrite E.
  exists t'. split; [reflexivity|]. split; [|split]; auto.
  - intros l I. rewrite HW. destruct (word t l off) as [x|] eqn:Ex; [|now destruct (HD l)]. cbn [option_map]. rewrite after_all. 
    replace (existsb _ locs) with true; [reflexivity|]. symmetry. apply existsb_exists. exists l. split; auto. destruct (list_eq_dec string_dec l l); [apply Nat.eqb_refl|congruence].
  - intros l j N. rewrite HW. destruct (word t l j) as [x|] eqn:Ex; [|reflexivity]. cbn [option_map]. rewrite after_all.
    replace (existsb _ locs) with false; [reflexivity|]. symmetry. apply not_true_iff_false. rewrite existsb_exists. intros (a & I & H).
    destruct (list_eq_dec string_dec a l) as [->|]; [|discriminate]. apply Nat.eqb_eq in H. destruct N; congruence.
Qed.

(** A back door write of several values puts them one after the other into each array. *)
Fixpoint spread (locs : list (list string)) (off : nat) (vals : list Z) : list (list string * nat * Z) :=
  match vals with [] => [] | v :: vals => map (fun l => (l, off, v)) locs ++ spread locs (S off) vals end.
Lemma spread_writes t ps locs : whole t ps locs -> forall vals off, (forall l i, In l locs -> (i < List.length vals)%nat -> word t l (off + i) <> None) -> writes t ps off vals (spread locs off vals).
Proof.
  intros W. induction vals as [|v vals IH]; intros off HD; [constructor|]. cbn [spread]. 
  assert (writes t ps off [v] (map (fun l => (l, off, v)) locs)) as H.
  { apply whole_writes; auto. intros l I. specialize (HD l 0%nat I ltac:(cbn; lia)). now rewrite Nat.add_0_r in HD. }
  inversion H as [|? ? ? ws ws' F W' X Y ]; subst. inversion W'; subst. rewrite app_nil_r in *. constructor; [congruence|]. apply IH.
  intros l i I Hi. replace (S off + i)%nat with (off + S i)%nat by lia. apply HD; auto. cbn. lia.
Qed.
Lemma after_spread locs l : forall vals off j x, after (spread locs off vals) l j x =
  if existsb (fun a => if list_eq_dec string_dec a l then true else false) locs then (if (off <=? j)%nat then match nth_error vals (j - off) with Some v => v | None => x end else x) else x.
Proof.
  assert (Q : forall off v j x, after (map (fun l => (l, off, v)) locs) l j x = if existsb (fun a => if list_eq_dec string_dec a l then true else false) locs then (if Nat.eqb off j then v else x) else x).
  { intros off v j x. rewrite after_all. induction locs as [|a r IH]; [reflexivity|]. cbn [existsb]. destruct (list_eq_dec string_dec a l); [|exact IH]. destruct (Nat.eqb off j); [reflexivity|]. cbn [orb] in *. rewrite IH. match goal with |- (if ?b then _ else _) = _ => now destruct b end. }
  induction vals as [|v vals IH]; intros off j x; cbn [spread].
  - cbn [after]. destruct (existsb _ locs), (off <=? j)%nat; try reflexivity. now destruct (j - off)%nat.
  - rewrite after_app, IH, Q. destruct (existsb _ locs); [|reflexivity].
    destruct (Nat.eqb_spec off j) as [->|N].
    + rewrite Nat.sub_diag. rewrite Nat.leb_refl. destruct (Nat.leb_spec (S j) j); [lia|]. reflexivity.
    + destruct (Nat.leb_spec (S off) j), (Nat.leb_spec off j); try lia; try reflexivity. now replace (j - off)%nat with (S (j - S off)) by lia.
Qed.
Theorem C217_burst c t kind off vals locs : whole t (fst (mem_paths c kind)) locs -> (forall l i, In l locs -> (i < List.length vals)%nat -> word t l (off + i) <> None) ->
  exists t', backdoor_write c t kind off vals = (t', true, snd (mem_paths c kind)) /\
    (forall l i v, In l locs -> nth_error vals i = Some v -> word t' l (off + i) = Some v) /\
    (forall l j, ~ In l locs \/ (j < off)%nat \/ (off + List.length vals <= j)%nat -> word t' l j = word t l j) /\
    (forall l, signal t' l = signal t l) /\ (forall l, get t' l = None <-> get t l = None).
Proof.
  intros W HD. destruct (C217_write c t kind off vals _ (spread_writes t _ locs W vals off HD)) as (t' & E & HW & HG & HS). exists t'. split; [exact E|]. split; [|split]; auto.
  - intros l i v I Hv. rewrite HW. assert (i < List.length vals)%nat by (apply nth_error_Some; congruence). destruct (word t l (off + i)) as [x|] eqn:Ex; [|now destruct (HD l i)].
    cbn [option_map]. rewrite after_spread. replace (existsb _ locs) with true.
    + destruct (Nat.leb_spec off (off + i)); [|lia]. replace (off + i - off)%nat with i by lia. now rewrite Hv.
    + symmetry. apply existsb_exists. exists l. split; auto. now destruct (list_eq_dec string_dec l l).
  - intros l j N. rewrite HW. destruct (word t l j) as [x|]; [|reflexivity]. cbn [option_map]. f_equal. rewrite after_spread. destruct (existsb _ locs) eqn:Ee; [|reflexivity].
    apply existsb_exists in Ee as (a & I & Ha). destruct (list_eq_dec string_dec a l) as [->|]; [|discriminate]. destruct (Nat.leb_spec off j); [|reflexivity].
    assert (nth_error vals (j - off) = None) as ->; [|reflexivity]. apply nth_error_None. destruct N as [N|[N|N]]; [tauto|lia|lia].
Qed.

(** C218: peek() of whole elements gives the first copy; an error is reported exactly if another
    copy differs. *)
Theorem C218_peek c t kind k off loc locs v : user c = false -> 0 < width c -> abstraction c kind k ->
  whole t (fst (mem_paths c kind)) (loc :: locs) -> (forall l, In l locs -> word t l off <> None) -> word t loc off = Some v -> snd (mem_paths c kind) = 0%nat ->
  exists ok, peek c t kind off = Returned ok [v mod 2 ^ width c] (if ok then 0 else 1)%nat /\
    (ok = true <-> forall l x, In l locs -> word t l off = Some x -> x mod 2 ^ width c = v mod 2 ^ width c).
Proof.
  intros HU HN HA W HD E He. assert (HP : lookup k (mpaths c) <> None) by (apply (proj1 (C217_errors c kind k HA)); exact He).
  unfold peek, has_path, backdoor_read. rewrite (abstraction_kind c kind k HA), HU. destruct (lookup k (mpaths c)) as [own|]; [|congruence]. cbn [negb andb].
  destruct (mem_paths c kind) as [ps e]. cbn [fst snd] in *. subst e. destruct (read_whole (width c) t off 0 ltac:(lia) ps loc locs v W HD E) as (b & E1 & E2).
  exists b. split; [|exact E2]. cbn [read_words]. rewrite E1. destruct b; reflexivity.
Qed.
(** What was poked is peeked, and other elements of the arrays as before. *)
Theorem C218_round_trip c t kind k off v loc locs : user c = false -> 0 < width c -> abstraction c kind k ->
  whole t (fst (mem_paths c kind)) (loc :: locs) -> (forall l, In l (loc :: locs) -> word t l off <> None) -> snd (mem_paths c kind) = 0%nat ->
  exists t', poke c t kind off v = (t', Returned true [] 0) /\ peek c t' kind off = Returned true [v mod 2 ^ width c] 0 /\
    forall j, j <> off -> (forall l, In l (loc :: locs) -> word t l j <> None) -> peek c t' kind j = peek c t kind j.
Proof.
  intros HU HN HA W HD He. assert (HP : lookup k (mpaths c) <> None) by (apply (proj1 (C217_errors c kind k HA)); exact He).
  destruct (C217_poke c t kind k off v _ HU HN HA HP W HD) as (t' & E & H1 & H2 & H3 & H4). rewrite He in E. exists t'. split; [exact E|].
  assert (S1 : same t t') by (intros l; symmetry; apply H4).
  assert (W' : whole t' (fst (mem_paths c kind)) (loc :: locs)).
  { eapply F2_impl; [|exact W]. intros con l (s & -> & Hs & HL). exists s. repeat split; auto. eapply same_leads; eauto. }
  split.
  - destruct (C218_peek c t' kind k off loc locs (v mod 2 ^ width c) HU HN HA W') as (ok & P1 & P2); auto.
    + intros l I. rewrite H1 by (now right). discriminate.
    + apply H1. now left.
    + rewrite Z.mod_mod in P1, P2 by (apply Z.pow_nonzero; lia). rewrite P1. destruct ok; [reflexivity|]. assert (false = true); [|discriminate].
      apply P2. intros l x I X. rewrite H1 in X by (now right). injection X as <-. apply Z.mod_mod. apply Z.pow_nonzero; lia.
  - intros j Nj HDj. destruct (word t loc j) as [x|] eqn:Ex; [|destruct (HDj loc); [now left|auto]].
    assert (Q : forall l, word t' l j = word t l j) by (intros l; apply H2; auto).
    destruct (C218_peek c t kind k j loc locs x HU HN HA W) as (ok & P1 & P2); auto. { intros l I. apply HDj. now right. }
    destruct (C218_peek c t' kind k j loc locs x HU HN HA W') as (ok' & P1' & P2'); auto. { intros l I. rewrite Q. apply HDj. now right. } { now rewrite Q. }
    rewrite P1, P1'. assert (ok = ok') as ->; [|reflexivity]. apply Bool.eq_iff_eq_true. rewrite P2, P2'. split; intros H l y I; [rewrite Q|rewrite <- Q]; apply H; exact I.
Qed.
(** A back door read of several elements gives them in turn, if all copies agree. *)
Theorem C218_burst c t kind off olds loc locs : 0 < width c -> whole t (fst (mem_paths c kind)) (loc :: locs) ->
  (forall i, (i < List.length olds)%nat -> exists x, word t loc (off + i) = Some x /\
     forall l, In l locs -> exists y, word t l (off + i) = Some y /\ y mod 2 ^ width c = x mod 2 ^ width c) ->
  exists r, backdoor_read c t kind off olds = Some (r, true, snd (mem_paths c kind)) /\ List.length r = List.length olds /\
    forall i x, (i < List.length olds)%nat -> word t loc (off + i) = Some x -> nth_error r i = Some (x mod 2 ^ width c).
Proof.
  intros HN W HD. unfold backdoor_read. destruct (mem_paths c kind) as [ps e]. cbn [fst snd] in *.
  assert (exists r, read_words (width c) t ps off olds = Some (r, true) /\ List.length r = List.length olds /\ forall i x, (i < List.length olds)%nat -> word t loc (off + i) = Some x -> nth_error r i = Some (x mod 2 ^ width c)) as (r & E & H).
  { revert off HD. induction olds as [|o olds IH]; intros off HD; [exists []; repeat split; intros i x Hi; cbn in Hi; lia|]. 
    destruct (HD 0%nat ltac:(cbn; lia)) as (x & Ex & Hx). rewrite Nat.add_0_r in *.
    destruct (read_whole (width c) t off o ltac:(lia) ps loc locs x W) as (b & E1 & E2); auto.
    { intros l I. destruct (Hx l I) as (y & -> & _). discriminate. }
    assert (b = true) as ->. { apply E2. intros l y I Y. destruct (Hx l I) as (y' & Y' & M). congruence. }
    destruct (IH (S off)) as (r & R1 & R2 & R3). { intros i Hi. replace (S off + i)%nat with (off + S i)%nat by lia. apply HD. cbn. lia. }
    exists (x mod 2 ^ width c :: r). cbn [read_words]. rewrite E1, R1. split; [reflexivity|]. split; [cbn; lia|]. intros [|i] z Hi Z0.
    - rewrite Nat.add_0_r in Z0. cbn. congruence.
    - cbn [nth_error]. apply R3; [cbn in Hi; lia|]. now replace (S off + i)%nat with (off + S i)%nat by lia. }
  rewrite E. exists r. split; auto.
Qed.
(** peek() raises if the first path has a slice with a position, or an element that is not there;
    poke() raises for an element that is not there, having written the ones before. *)
Theorem C218_raises c t kind k off con ps : user c = false -> abstraction c kind k -> lookup k (mpaths c) <> None -> fst (mem_paths c kind) = con :: ps ->
  Exists (fun s => 0 <= soff s \/ exists loc, leads t (spath s) loc /\ word t loc off = None) con -> peek c t kind off = Raised.
Proof.
  intros HU HA HP Hps HE. unfold peek, has_path, backdoor_read. rewrite (abstraction_kind c kind k HA), HU. destruct (lookup k (mpaths c)) as [own|]; [|congruence]. cbn [negb andb].
  destruct (mem_paths c kind) as [ps0 e]. cbn [fst] in Hps. subst ps0. cbn [read_words read_paths].
  assert (R : forall v0, read_con t off con v0 = None).
  { clear - HE. induction HE as [s con H|s con _ IH]; intros v0; cbn [read_con]; destruct (Z.ltb_spec (soff s) 0); auto.
    - destruct H as [H|(loc & L & W)]; [lia|]. now rewrite (read_leads _ _ _ _ L), W.
    - destruct (read_word t (spath s) off); auto. }
  now rewrite R.
Qed.
Theorem C218_poke_raises c t kind k off v con ps : user c = false -> abstraction c kind k -> lookup k (mpaths c) <> None -> fst (mem_paths c kind) = con :: ps ->
  Exists (fun s => (0 <= soff s /\ ssize s < 0) \/ exists loc, leads t (spath s) loc /\ word t loc off = None) con -> snd (poke c t kind off v) = Raised.
Proof.
  intros HU HA HP Hps HE. unfold poke, has_path, backdoor_write. rewrite (abstraction_kind c kind k HA), HU. destruct (lookup k (mpaths c)) as [own|]; [|congruence]. cbn [negb andb].
  destruct (mem_paths c kind) as [ps0 e]. cbn [fst] in Hps. subst ps0. cbn [jobs flat_map]. generalize (Z.land v (Z.shiftl 1 (width c) - 1)) as x. intros x. rewrite app_nil_r.
  generalize (flat_map (fun con => map (fun s => (spath s, off, slice_value s x)) con) ps) as rest. intros rest.
  assert (R : forall t0, same t t0 -> (forall l, word t l off = None -> word t0 l off = None) -> snd (deposits t0 (map (fun s => (spath s, off, slice_value s x)) con ++ rest)) = false).
  { clear - HE. induction HE as [s con H|s con _ IH]; intros t0 HS HW; cbn [map app deposits].
    - destruct H as [[H1 H2]|(loc & L & W)].
      + unfold slice_value. destruct (Z.ltb_spec (soff s) 0); [lia|]. destruct (Z.ltb_spec (ssize s) 0); [reflexivity|lia].
      + destruct (slice_value s x) as [y|]; [|reflexivity]. destruct (put_at t0 (split_dot (spath s)) off y) as [t1|] eqn:E; [|reflexivity]. exfalso.
        assert (L0 : leads t0 (spath s) loc) by (eapply same_leads; eauto). apply HW in W. destruct L0 as (ns & N & <-). rewrite (split_names _ _ N) in E.
        unfold word in W. rewrite walk_found in W. clear - E W. revert t0 t1 E W. induction ns as [|n ns IH]; intros t0 t1 E W; cbn [put_at walk found] in *.
        * destruct t0 as [|ws|]; try discriminate. destruct (Nat.ltb_spec off (List.length ws)); [|discriminate]. apply nth_error_None in W. lia.
        * rewrite MbdProofs.kid_get in *. destruct (get t0 [n]) as [u|]; [|eapply IH; eauto]. destruct (put_at u ns off y) as [u'|] eqn:Eu; [|discriminate]. eapply IH; eauto.
    - destruct (slice_value s x) as [y|]; [|reflexivity]. destruct (put_at t0 (split_dot (spath s)) off y) as [t1|] eqn:E; [|reflexivity].
      assert (X : exists old, word t0 (found t0 (split_dot (spath s))) off = Some old).
      { unfold word. rewrite walk_found. clear - E. revert t0 t1 E. induction (split_dot (spath s)) as [|n ns IH]; intros t0 t1 E; cbn [put_at walk] in *.
        - destruct t0 as [|ws|]; try discriminate. destruct (Nat.ltb_spec off (List.length ws)); [|discriminate]. destruct (nth_error ws off) eqn:En; eauto. apply nth_error_None in En. lia.
        - destruct (kid t0 n) as [u|]; [|eapply IH; eauto]. destruct (put_at u ns off y) as [u'|] eqn:Eu; [|discriminate]. eapply IH; eauto. }
      destruct X as [old X]. destruct (put_leads t0 (spath s) _ off y old (ex_intro _ _ (conj (split_is_names _) eq_refl)) X) as (t2 & E2 & S2 & W2 & _).
      assert (t2 = t1) as -> by congruence. apply IH; [eapply MbdProofs.same_trans; eauto|]. intros l W. rewrite W2, (HW l W). reflexivity. }
  specialize (R t (MbdProofs.same_refl t) (fun l H => H)). destruct (deposits t _) as [t' b]. cbn in R. now subst b.
Qed.

(** C219: with a user-defined back door (coroutines) nothing is written or read, yet the status is
    OK and 0 is read. *)
Theorem C219_user c t kind off v : user c = true -> poke c t kind off v = (t, Returned true [] 0) /\ peek c t kind off = Returned true [0] 0.
Proof. intros HU. unfold poke, peek. rewrite HU. split; reflexivity. Qed.
(** Without a path of the memory an error is reported, and the status is not OK. *)
Theorem C219_none c t kind k off v : user c = false -> abstraction c kind k -> lookup k (mpaths c) = None ->
  poke c t kind off v = (t, Returned false [] 1) /\ peek c t kind off = Returned false [] 1.
Proof. intros HU HA HL. unfold poke, peek, has_path. rewrite (abstraction_kind c kind k HA), HL, HU. split; reflexivity. Qed.
(** If only a block around it has no path, the error is reported, but the status is OK and 0 is read,
    if no path is left. *)
Theorem C219_block c t kind k off v : user c = false -> abstraction c kind k -> lookup k (mpaths c) <> None -> Forall (clear_paths k) (mblocks c) ->
  (forall ps, picks k (mblocks c) ps -> full "." ps = EmptyString) ->
  poke c t kind off v = (t, Returned true [] (snd (mem_paths c kind))) /\ peek c t kind off = Returned true [0] (snd (mem_paths c kind)).
Proof.
  intros HU HA HP HC HN. assert (fst (mem_paths c kind) = []) as E.
  { destruct (fst (mem_paths c kind)) as [|con l] eqn:E; auto. destruct (proj1 (C217_paths c kind k HA HC con)) as (own & con0 & ps & _ & _ & P & F & _); [rewrite E; now left|]. destruct F. now apply HN. }
  unfold poke, peek, has_path, backdoor_write, backdoor_read. rewrite (abstraction_kind c kind k HA), HU. destruct (lookup k (mpaths c)) as [own|]; [|congruence]. cbn [negb andb].
  destruct (mem_paths c kind) as [ps e]. cbn [fst snd] in *. subst ps. split; reflexivity.
Qed.

(** A memory of 8 bits in two copies below a block, and one other array and a signal *)
Definition ex_c : mem_cfg := MemCfg [BNode "" [("RTL", ["u0"; "u1"])] []; BNode "RTL" [("RTL", ["dut"])] []]%string [("RTL", [[Slice "ram" (-1) (-1)]])]%string false 8.
Definition ex_t (a b : list Z) : node := Scope [("dut", Scope [("u0", Scope [("ram", Arr a); ("busy", Sig 1)]); ("u1", Scope [("ram", Arr b)]); ("rom", Arr [9;9])])]%string.
Definition ex_locs : list (list string) := [["dut";"u0";"ram"]; ["dut";"u1";"ram"]]%string.
Lemma ex_abs : abstraction ex_c "" "RTL".
Proof. right. split; auto. left. exists [BNode "" [("RTL", ["u0"; "u1"])] []]%string, (BNode "RTL" [("RTL", ["dut"])] [])%string, []. repeat split; auto. discriminate. Qed.
Lemma ex_whole a b : whole (ex_t a b) (fst (mem_paths ex_c "")) ex_locs.
Proof.
  assert (fst (mem_paths ex_c "") = [[Slice "dut.u0.ram" (-1) (-1)]; [Slice "dut.u1.ram" (-1) (-1)]]%string) as -> by reflexivity.
  constructor; [|constructor; [|constructor]]; eexists; (split; [reflexivity|]); (split; [cbn; lia|]); cbn [spath].
  - exists ["dut";"u0";"ram"]%string. split; [|reflexivity]. apply (split_is_names "dut.u0.ram").
  - exists ["dut";"u1";"ram"]%string. split; [|reflexivity]. apply (split_is_names "dut.u1.ram").
Qed.
Example C217_example :
  abstraction ex_c "" "RTL" /\ Forall (clear_paths "RTL") (mblocks ex_c) /\ whole (ex_t [1;2;3] [1;2;3]) (fst (mem_paths ex_c "")) ex_locs /\
  poke ex_c (ex_t [1;2;3] [1;2;3]) "" 1 0x1ab = (ex_t [1;0xab;3] [1;0xab;3], Returned true [] 0) /\
  backdoor_write ex_c (ex_t [1;2;3] [1;2;3]) "" 1 [7;8] = (ex_t [1;7;8] [1;7;8], true, 0%nat).
Proof.
  split; [exact ex_abs|]. split; [|split; [apply ex_whole|split; reflexivity]].
  unfold mblocks, ex_c. repeat (apply Forall_cons; [intros own [= <-]; right; (split; [discriminate|]); cbn; intuition discriminate|]). apply Forall_nil.
Qed.
(** Slices with a position get their parts of the value, shifted down. *)
Example C217_slices_example :
  let c := MemCfg [BNode "RTL" [("RTL", ["dut"])] []]%string [("RTL", [[Slice "hi" 4 4; Slice "lo" 0 4]])]%string false 8 in
  let t h l := Scope [("dut", Scope [("hi", Arr h); ("lo", Arr l)])]%string in
  writes (t [0;0] [0;0]) (fst (mem_paths c "")) 1 [0xab] [(["dut";"hi"]%string, 1%nat, 0xa); (["dut";"lo"]%string, 1%nat, 0xb)] /\
  poke c (t [0;0] [0;0]) "" 1 0xab = (t [0;0xa] [0;0xb], Returned true [] 0) /\
  peek c (t [0;0xa] [0;0xb]) "" 1 = Raised.
Proof.
  split; [|split; reflexivity]. apply (w_cons _ _ 1%nat 0xab [] [_; _] []); [|constructor].
  constructor; [|constructor; [|constructor]]; eexists _, _, 0; (split; [reflexivity|]); (split; [|split; [reflexivity|split; [cbn; lia|intros _; split; [cbn; lia|reflexivity]]]]).
  - exists ["dut";"hi"]%string. split; [|reflexivity]. apply (split_is_names "dut.hi").
  - exists ["dut";"lo"]%string. split; [|reflexivity]. apply (split_is_names "dut.lo").
Qed.
Example C218_example :
  peek ex_c (ex_t [1;0x1ab;3] [1;0xab;3]) "" 1 = Returned true [0xab] 0 /\
  peek ex_c (ex_t [1;0xab;3] [1;0xac;3]) "" 1 = Returned false [0xab] 1 /\
  peek ex_c (ex_t [1;2;3] [1;2;3]) "" 3 = Raised /\
  snd (poke ex_c (ex_t [1;2;3;4] [1;2;3]) "" 3 0) = Raised /\
  backdoor_read ex_c (ex_t [1;2;3] [1;2;3]) "" 1 [0;0] = Some ([2;3], true, 0%nat).
Proof. repeat split; reflexivity. Qed.
(** Elements that are not there raise only when reached: poke() has then written the copies before. *)
Example C218_half_written_limit : fst (poke ex_c (ex_t [1;2;3;4] [1;2;3]) "" 3 0) = ex_t [1;2;3;0] [1;2;3].
Proof. reflexivity. Qed.
Example C219_example :
  let none := MemCfg (mblocks ex_c) [] false 8 in let usr := MemCfg (mblocks ex_c) (mpaths ex_c) true 8 in
  let blk := MemCfg [BNode "RTL" [] []]%string (mpaths ex_c) false 8 in let t := ex_t [1;2;3] [1;2;3] in
  poke none t "" 1 5 = (t, Returned false [] 1) /\ peek usr t "" 1 = Returned true [0] 0 /\
  poke blk t "" 1 5 = (t, Returned true [] 1) /\ peek blk t "" 1 = Returned true [0] 1 /\
  (forall ps, picks "RTL" (mblocks blk) ps -> full "." ps = EmptyString).
Proof.
  cbv zeta. repeat (split; [reflexivity|]). intros ps P. inversion P; subst; cbn in *; try discriminate; auto.
Qed.
Print Assumptions C217_burst.
Print Assumptions C218_burst.
Print Assumptions C217_paths.
Print Assumptions C217_errors.
Print Assumptions C217_write.
Print Assumptions C217_poke.
Print Assumptions C218_peek.
Print Assumptions C218_round_trip.
Print Assumptions C218_raises.
Print Assumptions C218_poke_raises.
Print Assumptions C219_user.
Print Assumptions C219_none.
Print Assumptions C219_block.
