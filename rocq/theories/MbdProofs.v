From Coq Require Import ZArith List Bool Arith String Lia.
From Verif Require Import HdlModel HdlSpec HdlProofs MbdModel MbdSpec.
Import ListNotations.
Open Scope Z_scope.

Lemma kid_get t n : kid t n = get t [n].
Proof. destruct t as [v|ws|l]; cbn; auto. now destruct (lookup n l). Qed.
Lemma get_cons t n t' loc : get t [n] = Some t' -> get t (n :: loc) = get t' loc.
Proof. destruct t as [v|ws|l]; cbn; try discriminate. destruct (lookup n l); congruence. Qed.
Lemma walk_found : forall ns t, get t (found t ns) = Some (walk t ns).
Proof.
  induction ns as [|n ns IH]; intros t; auto. cbn [walk found]. rewrite kid_get. destruct (get t [n]) as [t'|] eqn:E; auto.
  rewrite (get_cons _ _ _ _ E). auto.
Qed.
Lemma lookup_replace n t' l : lookup n l <> None -> lookup n (replace n t' l) = Some t'.
Proof.
  induction l as [|[k x] l IH]; cbn; [congruence|]. destruct (String.eqb n k) eqn:E; cbn; rewrite E; auto.
Qed.
Lemma lookup_replace_other n m t' l : n <> m -> lookup m (replace n t' l) = lookup m l.
Proof.
  intros N. induction l as [|[k x] l IH]; cbn; auto. destruct (String.eqb n k) eqn:E; cbn.
  - apply String.eqb_eq in E. subst k. destruct (String.eqb m n) eqn:E2; auto. apply String.eqb_eq in E2. congruence.
  - now rewrite IH.
Qed.
Definition same (t t' : node) : Prop := forall loc, get t loc = None <-> get t' loc = None.
Lemma same_found : forall ns t t', same t t' -> found t' ns = found t ns.
Proof.
  induction ns as [|n ns IH]; intros t t' HS; auto. cbn [found]. pose proof (HS [n]) as H1.
  destruct (get t [n]) as [u|] eqn:E, (get t' [n]) as [u'|] eqn:E'; try (destruct H1 as [H1 H2]; (now discriminate H1 || now discriminate H2)).
  - f_equal. apply IH. intros loc. specialize (HS (n :: loc)). now rewrite (get_cons _ _ _ _ E), (get_cons _ _ _ _ E') in HS.
  - now apply IH.
Qed.
Lemma same_leads t t' p loc : same t t' -> leads t p loc -> leads t' p loc.
Proof. intros S1 (ns & N & <-). exists ns. split; auto. now apply same_found. Qed.
Lemma same_refl t : same t t. Proof. split; auto. Qed.
Lemma same_trans a b c : same a b -> same b c -> same a c.
Proof. intros H1 H2 l. rewrite (H1 l). apply H2. Qed.

Lemma set_nth_same k v ws : (k < List.length ws)%nat -> nth_error (set_nth k v ws) k = Some v.
Proof. revert k. induction ws as [|x ws IH]; intros [|k] L; cbn in *; try lia; auto. apply IH. lia. Qed.
Lemma set_nth_other j k v ws : j <> k -> nth_error (set_nth k v ws) j = nth_error ws j.
Proof. revert j k. induction ws as [|x ws IH]; intros [|j] [|k] N; cbn; auto; try congruence. Qed.

Lemma put_ok k v : forall ns t ws, walk t ns = Arr ws -> (k < List.length ws)%nat -> exists t', put_at t ns k v = Some t' /\ same t t' /\
  word t' (found t ns) k = Some v /\ (forall loc j, loc <> found t ns \/ j <> k -> word t' loc j = word t loc j) /\ (forall loc, signal t' loc = signal t loc).
Proof.
  induction ns as [|n ns IH]; intros t ws HW HL; cbn [walk put_at found] in *.
  - subst t. apply Nat.ltb_lt in HL. rewrite HL. apply Nat.ltb_lt in HL. eexists. split; [reflexivity|]. split; [|split; [|split]].
    + intros [|a l]; cbn; split; congruence.
    + cbn. now apply set_nth_same.
    + intros [|a l] j H; cbn; [|auto]. destruct H as [H|H]; [congruence|]. now apply set_nth_other.
    + intros [|a l]; reflexivity.
  - rewrite kid_get in *. destruct (get t [n]) as [u|] eqn:E; [|now apply IH with ws].
    destruct (IH u ws HW HL) as (u' & E1 & HS & H1 & H2 & H3). rewrite E1. destruct t as [z|zs|l]; [discriminate|discriminate|]. cbn in E.
    destruct (lookup n l) as [u0|] eqn:EL; [|discriminate]. injection E as ->.
    exists (Scope (replace n u' l)). split; auto.
    assert (G : forall loc, get (Scope (replace n u' l)) (n :: loc) = get u' loc).
    { intros loc. cbn. now rewrite lookup_replace by congruence. }
    assert (G0 : forall loc, get (Scope l) (n :: loc) = get u loc) by (intros loc; cbn; now rewrite EL).
    assert (GO : forall m loc, m <> n -> get (Scope (replace n u' l)) (m :: loc) = get (Scope l) (m :: loc)).
    { intros m loc N. cbn. now rewrite lookup_replace_other by congruence. }
    split; [|split; [|split]].
    + intros [|m loc]; [cbn; split; congruence|]. destruct (string_dec m n) as [->|N]; [now rewrite G, G0|now rewrite GO].
    + unfold word. now rewrite G.
    + intros [|m loc] j Hl; [reflexivity|]. destruct (string_dec m n) as [->|N]; [|unfold word; now rewrite GO].
      unfold word. rewrite G, G0. apply H2. destruct Hl; [left; congruence|now right].
    + intros [|m loc]; [reflexivity|]. destruct (string_dec m n) as [->|N]; [|unfold signal; now rewrite GO].
      unfold signal. rewrite G, G0. apply H3.
Qed.
Lemma put_leads t p loc k v old : leads t p loc -> word t loc k = Some old -> exists t', put_at t (split_dot p) k v = Some t' /\ same t t' /\
  (forall l j, word t' l j = option_map (after [(loc, k, v)] l j) (word t l j)) /\ (forall l, signal t' l = signal t l).
Proof.
  intros (ns & N & <-) W. rewrite (split_names p ns N). unfold word in W. rewrite walk_found in W. destruct (walk t ns) as [|ws|] eqn:Ew; try discriminate.
  assert (L : (k < List.length ws)%nat) by (apply nth_error_Some; congruence).
  destruct (put_ok k v ns t ws Ew L) as (t' & E & A & B & C & D). exists t'. split; auto. split; auto. split; auto.
  intros l j. cbn [after]. destruct (list_eq_dec string_dec (found t ns) l) as [<-|Nl].
  - destruct (Nat.eqb_spec k j) as [<-|Nj]; [|rewrite C by auto; destruct (word t (found t ns) j); reflexivity].
    rewrite B. unfold word. rewrite walk_found, Ew, W. reflexivity.
  - rewrite C by auto. destruct (word t l j); reflexivity.
Qed.
Lemma read_leads t p loc k : leads t p loc -> read_word t p k = word t loc k.
Proof. intros (ns & N & <-). unfold read_word, word. rewrite (split_names p ns N), walk_found. now destruct (walk t ns). Qed.

Lemma F2_impl {A B} (P Q : A -> B -> Prop) l m : (forall a b, P a b -> Q a b) -> Forall2 P l m -> Forall2 Q l m.
Proof. intros H. induction 1; constructor; auto. Qed.
Lemma after_app a b l j x : after (a ++ b) l j x = after b l j (after a l j x).
Proof. revert x. induction a as [|[[l0 j0] v] a IH]; intros x; cbn; auto. Qed.
Definition job_ok (t : node) (j : string * nat * option Z) (w : list string * nat * Z) : Prop :=
  exists p k x loc old, j = (p, k, Some x) /\ w = (loc, k, x) /\ leads t p loc /\ word t loc k = Some old.
Lemma deposits_ok : forall js ws t, Forall2 (job_ok t) js ws -> exists t', deposits t js = (t', true) /\ same t t' /\
  (forall l j, word t' l j = option_map (after ws l j) (word t l j)) /\ (forall l, signal t' l = signal t l).
Proof.
  induction js as [|j js IH]; intros ws t F; inversion F as [|? w ? ws' J F']; subst.
  - exists t. split; auto. split; [apply same_refl|]. split; auto. intros l j. cbn. now destruct (word t l j).
  - destruct J as (p & k & x & loc & old & -> & -> & HL & HW). destruct (put_leads t p loc k x old HL HW) as (t1 & E & S1 & W1 & G1).
    destruct (IH ws' t1) as (t2 & E2 & S2 & W2 & G2).
    { eapply F2_impl; [|exact F']. intros a b (p' & k' & x' & loc' & old' & -> & -> & L' & W'). 
      eexists p', k', x', loc', _. split; auto. split; auto. split; [eapply same_leads; eauto|]. rewrite W1, W'. reflexivity. }
    exists t2. cbn [deposits]. rewrite E. split; auto. split; [eapply same_trans; eauto|]. split.
    + intros l j. rewrite W2, W1. cbn [after]. destruct (word t l j); reflexivity.
    + intros l. rewrite G2. apply G1.
Qed.
Lemma slice_value_part s v x : part s v x -> slice_value s v = Some x.
Proof.
  intros [P1 P2]. unfold slice_value. destruct (Z.ltb_spec (soff s) 0) as [H|H]; [now rewrite P1|]. destruct (P2 H) as [S1 ->].
  destruct (Z.ltb_spec (ssize s) 0); [lia|]. f_equal.
  replace (Z.shiftl 1 (ssize s) - 1) with (Z.ones (ssize s)) by (unfold Z.ones; lia). rewrite Z.land_ones, Z.shiftr_div_pow2 by lia. reflexivity.
Qed.
Lemma jobs_ok t ps : forall off vals ws, writes t ps off vals ws -> Forall2 (job_ok t) (jobs ps off vals) ws.
Proof.
  intros off vals ws W. induction W as [off|off v vals ws ws' F W IH]; [constructor|]. cbn [jobs]. apply Forall2_app; auto.
  assert (E : flat_map (fun con => map (fun s => (spath s, off, slice_value s v)) con) ps = map (fun s => (spath s, off, slice_value s v)) (List.concat ps)).
  { rewrite flat_map_concat_map, concat_map. reflexivity. }
  rewrite E. clear - F. induction F as [|s w l ws H F IH]; [constructor|]. cbn [map]. constructor; auto.
  destruct H as (loc & x & old & -> & HL & HW & HP). exists (spath s), off, x, loc, old. rewrite (slice_value_part _ _ _ HP). auto.
Qed.

Lemma mask_mod n v : 0 <= n -> Z.land v (Z.shiftl 1 n - 1) = v mod 2 ^ n.
Proof. intros N. replace (Z.shiftl 1 n - 1) with (Z.ones n) by (unfold Z.ones; lia). now apply Z.land_ones. Qed.
Lemma read_one t k s loc x : soff s < 0 -> leads t (spath s) loc -> word t loc k = Some x -> read_con t k [s] 0 = Some x.
Proof. intros H L W. cbn. destruct (Z.ltb_spec (soff s) 0); [|lia]. now rewrite (read_leads _ _ _ _ L), W. Qed.
Lemma read_rest n t k cur : 0 <= n -> forall ps locs, whole t ps locs -> (forall l, In l locs -> word t l k <> None) ->
  exists b, read_paths n t k ps false cur = Some (cur, b) /\ (b = true <-> forall l x, In l locs -> word t l k = Some x -> x mod 2 ^ n = cur).
Proof.
  intros N ps locs W. induction W as [|con loc ps locs (s & -> & Hs & HL) W IH]; intros HD.
  - exists true. split; auto. split; auto. intros _ l x [].
  - cbn [read_paths]. destruct (word t loc k) as [x|] eqn:E; [|destruct (HD loc); [now left|auto]]. rewrite (read_one t k s loc x Hs HL E), (mask_mod n x N).
    destruct (Z.eqb_spec (x mod 2 ^ n) cur) as [Ex|Ex].
    + destruct IH as (b & IH1 & IH2); [intros l I; apply HD; now right|]. exists b. split; auto. rewrite IH2. split; intros H l y; [intros [<-|I]; eauto; congruence|intros I; apply H; now right].
    + exists false. split; auto. split; [discriminate|]. intros H. exfalso. apply Ex. eapply H; [now left|exact E].
Qed.
Lemma read_whole n t k x0 : 0 <= n -> forall ps loc locs v, whole t ps (loc :: locs) -> (forall l, In l locs -> word t l k <> None) -> word t loc k = Some v ->
  exists b, read_paths n t k ps true x0 = Some (v mod 2 ^ n, b) /\ (b = true <-> forall l x, In l locs -> word t l k = Some x -> x mod 2 ^ n = v mod 2 ^ n).
Proof.
  intros N ps loc locs v W HD E. inversion W as [|con ? ps' ? (s & -> & Hs & HL) W']; subst. cbn [read_paths].
  rewrite (read_one t k s loc v Hs HL E), (mask_mod n v N), Z.eqb_refl. apply read_rest; auto.
Qed.
