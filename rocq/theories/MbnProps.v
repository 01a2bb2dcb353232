(** C230: finding an address map by name. *)
From Coq Require Import List Bool Arith String Lia Sorted.
From Verif Require Import Prelude MtrModel MtrSpec MtrProofs MbnModel MbnSpec.
Import ListNotations.
Local Open Scope list_scope.

(** ** The maps of a block in the order of creation *)
Lemma maps_step s tr x b : inv2 s tr ->
  b_maps (bl (fst (step s x)) b) = b_maps (bl s b) \/ b_maps (bl (fst (step s x)) b) = b_maps (bl s b) ++ [nm s] \/
  b_maps (bl (fst (step s x)) b) = [].
Proof.
  intros (V & _). assert (Sk : forall t, skel s t -> b_maps (bl t b) = b_maps (bl s b)).
  { intros t (_ & _ & _ & _ & _ & B). symmetry. apply B. }
  unfold step. destruct (exist s x) eqn:E; cbn [negb]; [|now left].
  destruct x as [p|b'|b'|m r rights u f|m c|m q a|m on|m on|b' m|b'].
  - unfold add_block. cbn zeta. destruct p as [p|]; [destruct (b_lock _)|]; cbn [fst set_bl new_block bl].
    + destruct (Nat.eq_dec b (nb s)) as [->|N]; [rewrite upd_eq; auto|rewrite upd_neq by exact N; auto].
    + destruct (Nat.eq_dec b p) as [->|Np]; [rewrite upd_eq; cbn [b_maps]|rewrite upd_neq by exact Np];
        (match goal with |- context [upd _ ?i _ ?j] => destruct (Nat.eq_dec j i) as [->|N]; [rewrite upd_eq; auto|rewrite upd_neq by exact N; auto] end).
    + destruct (Nat.eq_dec b (nb s)) as [->|N]; [rewrite upd_eq; auto|rewrite upd_neq by exact N; auto].
  - unfold create_map. cbn zeta. destruct (b_lock _); [now left|]. cbn [fst bl].
    destruct (Nat.eq_dec b b') as [->|N]; [rewrite upd_eq; auto|rewrite upd_neq by exact N; auto].
  - now left.
  - left. unfold add_reg. cbn zeta. destruct (memb _ _); [reflexivity|]. destruct (negb _); reflexivity.
  - left. unfold add_submap. destruct (p_par _); [reflexivity|]. destruct (reaches _ _ _ _) as [[|]|]; try reflexivity. cbn [fst].
    destruct (b_lock _); [|reflexivity]. rewrite init_map_bl. reflexivity.
  - left. unfold set_sequencer. destruct q; reflexivity.
  - now left.
  - left. apply Sk, set_check_skel.
  - left. apply Sk, skel_set_bl; reflexivity.
  - left. unfold lock_model. destruct (b_lock _); [reflexivity|]. destruct (lock_down _ _ _) as [t|] eqn:L; [|reflexivity]. apply lock_down_skel in L as (L & _). apply Sk. cbn [fst].
    destruct (b_par (bl t b')); [exact L|]. eapply skel_trans; [exact L|apply fold_init_skel].
Qed.
Lemma sorted_snoc l x : StronglySorted lt l -> (forall y, In y l -> y < x) -> StronglySorted lt (l ++ [x]).
Proof.
  induction 1 as [|a l Ss IH A]; intros H; cbn [app]; [repeat constructor|]. constructor.
  - apply IH. intros y Hy. apply H. now right.
  - apply Forall_app. split; [exact A|]. repeat constructor. apply H. now left.
Qed.
Lemma maps_sorted ls b : StronglySorted lt (b_maps (bl (fst (run ls)) b)).
Proof.
  induction ls as [|x ls IH] using rev_ind; [constructor|]. rewrite run_snoc. cbn [fst].
  destruct (run_inv ls) as (V & _). destruct (maps_step _ _ x b V) as [-> |[-> | ->]]; [exact IH| |constructor].
  apply sorted_snoc; [exact IH|]. intros y Hy. apply (v_bmaps _ _ (proj1 V)) in Hy. apply Hy.
Qed.

(** ** The search below a map *)
Section Below.
Context (s : ms) (tr : list out) (V : inv s tr) (name : nat -> string) (n : string).
Lemma strictly_cases m x : strictly tr m x <-> In x (subs_of tr m) \/ exists c, In c (subs_of tr m) /\ strictly tr c x.
Proof.
  split.
  - intros (p & J & U). revert x J. induction U as [|q p Jp U IH]; intros x J; [left; now apply in_subs_of|]. right.
    destruct (IH p Jp) as [I|(c & I & Sc)].
    + exists p. split; [exact I|]. exists p. split; [exact J|constructor].
    + exists c. split; [exact I|]. destruct Sc as (r & J2 & U2). exists p. split; [exact J|]. now apply under_sub with r.
  - intros [I|(c & I & p & J & U)]; apply in_subs_of in I.
    + exists m. split; [exact I|constructor].
    + exists p. split; [exact J|]. apply under_trans with c; [|exact U]. apply under_sub with m; [exact I|constructor].
Qed.
Definition result (m : nat) (o : option nat) : Prop :=
  match o with Some x => finds tr name n m x | None => barren tr name n m end.
Lemma find_app_o {A} (f : A -> bool) a b : find f (a ++ b) = match find f a with Some x => Some x | None => find f b end.
Proof. induction a as [|x a IH]; cbn; [reflexivity|]. now destruct (f x). Qed.
Lemma find_split (l : list nat) : match find (named name n) l with
  | Some x => exists a b, l = a ++ x :: b /\ (forall y, In y a -> name y <> n) /\ name x = n
  | None => forall y, In y l -> name y <> n
  end.
Proof.
  induction l as [|a l IH]; cbn [find]; [easy|]. unfold named at 1. destruct (String.eqb_spec (name a) n) as [E|E].
  - exists [], l. easy.
  - destruct (find (named name n) l) as [x|].
    + destruct IH as (a' & b & -> & F & X). exists (a :: a'), b. split; [reflexivity|]. split; [|exact X]. intros y [<-|Hy]; auto.
    + intros y [<-|Hy]; auto.
Qed.
Lemma search_below : forall k m, m < nm s -> nb s <= k + p_blk (mp s m) -> 0 < k ->
  exists l, collect (fun m => p_sub (mp s m)) k s m = Some l /\ result m (find (named name n) l).
Proof.
  induction k as [|k IH]; intros m Hm H K; [lia|]. cbn [collect]. rewrite (v_sub _ _ V).
  assert (F : forall cs a, (forall c, In c cs -> In (OJoined m c) tr) ->
    exists l, fold_left (fun o c => match o, collect (fun m => p_sub (mp s m)) k s c with Some l, Some l2 => Some (l ++ l2) | _, _ => None end) cs (Some a) = Some (a ++ l) /\
      match find (named name n) l with
      | Some x => exists d c e, cs = d ++ c :: e /\ (forall y, In y d -> barren tr name n y) /\ finds tr name n c x
      | None => forall y, In y cs -> barren tr name n y
      end).
  { induction cs as [|c cs IHc]; intros a Hc; cbn [fold_left]; [exists []; rewrite app_nil_r; split; [reflexivity|easy]|].
    assert (Jc := Hc c (or_introl eq_refl)). assert (Lt := joined_blk _ _ V _ _ Jc).
    destruct (IH c) as (l1 & E1 & R1); [apply (v_joined _ _ V) in Jc; tauto|lia|lia|]. rewrite E1.
    destruct (IHc (a ++ l1)) as (l2 & E2 & R2); [intros d Hd; apply Hc; now right|].
    exists (l1 ++ l2). rewrite E2, app_assoc. split; [reflexivity|]. rewrite find_app_o. unfold result in R1.
    destruct (find (named name n) l1) as [x|].
    - exists [], c, cs. split; [reflexivity|]. split; [easy|exact R1].
    - destruct (find (named name n) l2) as [x|].
      + destruct R2 as (d & c2 & e & -> & B & X). exists (c :: d), c2, e. split; [reflexivity|]. split; [|exact X]. intros y [<-|Hy]; auto.
      + intros y [<-|Hy]; auto. }
  destruct (F (subs_of tr m) []) as (l & -> & R); [intros c; apply in_subs_of|]. cbn [app option_map].
  exists (subs_of tr m ++ l). split; [reflexivity|]. rewrite find_app_o. assert (X := find_split (subs_of tr m)).
  destruct (find (named name n) (subs_of tr m)) as [x|].
  - destruct X as (a & b & E & A & X). now apply finds_here with a b.
  - destruct (find (named name n) l) as [x|]; cbn [result].
    + destruct R as (d & c & e & E & B & Y). now apply finds_below with d c e.
    + intros x Hx. apply strictly_cases in Hx as [I|(c & I & Sc)]; [now apply X|]. now apply (R c I).
Qed.
Lemma submaps_result m : m < nm s -> result m (find (named name n) (get_submaps s m)).
Proof.
  intros H. destruct (search_below (S (nb s)) m H) as (l & E & R); [lia|lia|]. unfold get_submaps. now rewrite E.
Qed.
Lemma in_submaps_result : forall l, (forall m, In m l -> m < nm s) ->
  match in_submaps name s n l with
  | Some x => exists a p b, l = a ++ p :: b /\ (forall y, In y a -> barren tr name n y) /\ finds tr name n p x
  | None => forall y, In y l -> barren tr name n y
  end.
Proof.
  induction l as [|m l IH]; intros H; cbn [in_submaps]; [easy|]. assert (R := submaps_result m (H m (or_introl eq_refl))). unfold result in R.
  destruct (find (named name n) (get_submaps s m)) as [x|].
  - exists [], m, l. split; [reflexivity|]. split; [easy|exact R].
  - specialize (IH (fun y Hy => H y (or_intror Hy))). destruct (in_submaps name s n l) as [x|].
    + destruct IH as (a & p & b & -> & B & X). exists (m :: a), p, b. split; [reflexivity|]. split; [|exact X]. intros y [<-|Hy]; auto.
    + intros y [<-|Hy]; auto.
Qed.
(** what is found is below, and has the name *)
Lemma finds_strictly m x : finds tr name n m x -> strictly tr m x /\ name x = n.
Proof.
  induction 1 as [m a x b E A X|m a c b x N E B F IH].
  - split; [|exact X]. apply strictly_cases. left. rewrite E. apply in_app_iff. right. now left.
  - split; [|apply IH]. apply strictly_cases. right. exists c. split; [rewrite E; apply in_app_iff; right; now left|apply IH].
Qed.
Lemma split_unique {A} (P : A -> Prop) a x b a' x' b' : a ++ x :: b = a' ++ x' :: b' ->
  (forall y, In y a -> ~ P y) -> P x -> (forall y, In y a' -> ~ P y) -> P x' -> x = x'.
Proof.
  revert a'. induction a as [|h a IH]; intros [|h' a'] E N X N' X'; cbn in E; injection E as E1 E2.
  - exact E1.
  - subst. exfalso. apply (N' h'); [now left|exact X].
  - subst. exfalso. apply (N x'); [now left|exact X'].
  - subst. apply (IH a'); auto; intros y Hy; [apply N|apply N']; now right.
Qed.
Lemma finds_not_barren m x : finds tr name n m x -> ~ barren tr name n m.
Proof. intros F B. apply finds_strictly in F as (A & E). exact (B x A E). Qed.
Lemma finds_unique m x : finds tr name n m x -> forall y, finds tr name n m y -> x = y.
Proof.
  induction 1 as [m a x b E A X|m a c b x N E B F IH]; intros y G.
  - destruct G as [a' y b' E' A' Y|a' c' b' y N' E' B' G'].
    + rewrite E in E'. eapply (split_unique (fun z => name z = n)); eauto.
    + exfalso. apply (N' x); [rewrite E; apply in_app_iff; right; now left|exact X].
  - destruct G as [a' y b' E' A' Y|a' c' b' y N' E' B' G'].
    + exfalso. apply (N y); [rewrite E'; apply in_app_iff; right; now left|exact Y].
    + apply IH. rewrite E in E'.
      assert (c = c') as ->; [|exact G'].
      eapply (split_unique (fun z => ~ barren tr name n z)); [exact E'| | | |]; try (intros z Hz; auto); eapply finds_not_barren; eauto.
Qed.
End Below.

(** ** C230 *)
Lemma sorted_before l : StronglySorted lt l -> forall a x b, l = a ++ x :: b -> forall y, In y l -> (y < x <-> In y a).
Proof.
  intros H a x b ->. revert H. induction a as [|h a IH]; cbn [app]; intros H y Hy; inversion H as [|? ? H1 H2]; subst.
  - rewrite Forall_forall in H2. split; [|easy]. intros L. destruct Hy as [<-|Hy]; [lia|]. apply H2 in Hy. lia.
  - rewrite Forall_forall in H2. destruct Hy as [<-|Hy].
    + split; [now left|]. intros _. apply H2. apply in_app_iff. right. now left.
    + rewrite (IH H1 y Hy). cbn [In]. split; [auto|]. intros [<-|I]; [|exact I]. apply H2 in Hy. lia.
Qed.
(** What it returns, whatever the history; only this, and a warning exactly when it is None. *)
Theorem C230_found ls name n b :
  let s := fst (run ls) in let tr := snd (run ls) in
  found s tr name n b (fst (get_map_by_name name s b n)) /\
  (forall o, found s tr name n b o -> o = fst (get_map_by_name name s b n)) /\
  (snd (get_map_by_name name s b n) = true <-> fst (get_map_by_name name s b n) = None).
Proof.
  intros s tr. destruct (run_inv ls) as ((V & _) & _). fold s tr in V.
  assert (O : forall m, In m (b_maps (bl s b)) <-> own s b m) by (intros m; apply (v_bmaps _ _ V)).
  assert (R : found s tr name n b (fst (get_map_by_name name s b n))).
  { assert (So := maps_sorted ls b). fold s in So. unfold get_map_by_name. cbn zeta. assert (F := find_split name n (b_maps (bl s b))).
    destruct (find (named name n) (b_maps (bl s b))) as [m|]; cbn [fst].
    - destruct F as (a & c & E & A & X). apply found_own; [apply O; rewrite E; apply in_app_iff; right; now left|exact X|].
      intros m' Om Nm. apply O in Om. destruct (le_lt_dec m m') as [L|L]; [exact L|]. apply (sorted_before _ So _ _ _ E _ Om) in L. now apply A in L.
    - assert (I := in_submaps_result s tr V name n (b_maps (bl s b))). destruct (in_submaps name s n (b_maps (bl s b))) as [x|]; cbn [fst].
      + destruct I as (a & p & c & E & B & X); [intros m Hm; apply O in Hm; apply Hm|]. apply found_sub with p.
        * intros m' Om. apply F. now apply O.
        * apply O. rewrite E. apply in_app_iff. right. now left.
        * intros p' Op L. apply O in Op. apply (sorted_before _ So _ _ _ E _ Op) in L. now apply B.
        * exact X.
      + apply found_none. intros m' Om. apply O in Om. split; [now apply F|]. apply I; [intros m Hm; apply O in Hm; apply Hm|exact Om]. }
  split; [exact R|]. split.
  - intros o G. destruct R as [m Om X L|p x N Op B F|N]; destruct G as [m' Om' X' L'|p' x' N' Op' B' F'|N'].
    + f_equal. apply Nat.le_antisymm; auto.
    + exfalso. now apply (N' m).
    + exfalso. now apply (N' m).
    + exfalso. now apply (N m').
    + assert (p = p') as <-.
      { destruct (lt_eq_lt_dec p p') as [[L|E]|L]; [|exact E|]; exfalso; [eapply finds_not_barren; [exact F|auto]|eapply finds_not_barren; [exact F'|auto]]. }
      f_equal. eapply finds_unique; eauto.
    + exfalso. eapply finds_not_barren; [exact F|]. now apply N'.
    + exfalso. now apply (N m').
    + exfalso. eapply finds_not_barren; [exact F'|]. now apply N.
    + reflexivity.
  - unfold get_map_by_name. cbn zeta. destruct (find _ _) as [m|]; [easy|]. destruct (in_submaps _ _ _ _); easy.
Qed.
Print Assumptions C230_found.

(** A map is found if and only if a map of the block, or one below such a map, has the name;
    the one found is such a map. *)
Theorem C230_exists ls name n b :
  let s := fst (run ls) in let tr := snd (run ls) in
  (forall x, fst (get_map_by_name name s b n) = Some x -> name x = n /\ exists m, own s b m /\ under tr m x) /\
  (fst (get_map_by_name name s b n) = None <-> forall m x, own s b m -> under tr m x -> name x <> n) /\
  (forall m x, own s b m -> under tr m x -> name x = n -> (forall y, name y = n -> y = x) ->
   fst (get_map_by_name name s b n) = Some x).
Proof.
  intros s tr. destruct (run_inv ls) as ((V & _) & _). fold s tr in V. destruct (C230_found ls name n b) as (R & _). fold s tr in R.
  assert (A : forall x, fst (get_map_by_name name s b n) = Some x -> name x = n /\ exists m, own s b m /\ under tr m x).
  { intros x E. rewrite E in R. inversion R as [m Om X L|p y N Op B F|]; subst.
    - split; [reflexivity|]. exists x. split; [exact Om|constructor].
    - destruct (finds_strictly _ _ _ _ _ F) as (St & X). split; [exact X|]. exists p. split; [exact Op|]. now apply strictly_under. }
  assert (B : fst (get_map_by_name name s b n) = None <-> forall m x, own s b m -> under tr m x -> name x <> n).
  { split.
    - intros E. rewrite E in R. inversion R as [| |N]. intros m x Om U. destruct (under_split _ _ _ U) as [<-|St]; [now apply N|]. now apply (N m Om).
    - intros N. destruct (fst (get_map_by_name name s b n)) as [x|]; [|reflexivity]. destruct (A x eq_refl) as (X & m & Om & U). exfalso. exact (N m x Om U X). }
  split; [exact A|]. split; [exact B|]. intros m x Om U X Un. destruct (fst (get_map_by_name name s b n)) as [y|].
  - f_equal. apply Un. now apply A.
  - exfalso. now apply (proj1 B eq_refl m x).
Qed.
Print Assumptions C230_exists.

(** A map of the block itself, once found, is found from then on. *)
Theorem C230_stays ls ls2 name n b m : own (fst (run ls)) b m ->
  fst (get_map_by_name name (fst (run ls)) b n) = Some m ->
  fst (get_map_by_name name (fst (run (ls ++ ls2))) b n) = Some m.
Proof.
  intros Om E. destruct (C230_found ls name n b) as (R & _). rewrite E in R.
  destruct (keep_run ls ls2) as (_ & K). assert (Mo := nm_mono ls ls2).
  symmetry. apply (C230_found (ls ++ ls2) name n b). 
  assert (L : forall m', own (fst (run ls)) b m' -> name m' = n -> m <= m').
  { inversion R as [m0 Om0 X L|p y N Op B F|]; subst; [exact L|]. destruct (finds_strictly _ _ _ _ _ F) as (_ & X). intros m' Om' X'. now destruct (N m' Om'). }
  apply found_own.
  - destruct Om as (Lt & Bk). split; [lia|]. now rewrite K.
  - now apply (C230_exists ls name n b).
  - intros m' (Lt & Bk) X. destruct (le_lt_dec (nm (fst (run ls))) m') as [G|G]; [destruct Om; lia|]. apply L; [|exact X]. split; [exact G|]. now rewrite <- K.
Qed.
Print Assumptions C230_stays.

(** Block 0 has maps 0 and 1; block 1 below has maps 2 and 3, block 2 below block 1 has maps 4 and 5.
    Maps 2 and 4 are submaps: 2 of 1, 4 of 2; 3 is a submap of 1 after 2; map 5 is nowhere. Map 3 is
    found before map 4, although map 4 is below map 2. Map 5 is not found from its grandparent,
    but from its own block. A map made later in block 0 hides one that was found below. *)
Definition mbn_build : list label :=
  [LBlock None; LBlock (Some 0); LBlock (Some 1); LMap 0; LMap 0; LMap 1; LMap 1; LMap 2; LMap 2; LSub 1 2; LSub 2 4; LSub 1 3].
Definition mbn_name (m : nat) : string :=
  match m with 0 => "a" | 1 => "b" | 2 => "c" | 3 => "d" | 4 => "d" | 5 => "e" | 6 => "d" | _ => "" end%string.
Example C230_example :
  let s := fst (run mbn_build) in let q := get_map_by_name mbn_name in
  q s 0 "b"%string = (Some 1, false) /\ q s 0 "d"%string = (Some 3, false) /\ q s 1 "d"%string = (Some 3, false) /\
  q s 2 "d"%string = (Some 4, false) /\ q s 0 "e"%string = (None, true) /\ q s 2 "e"%string = (Some 5, false) /\
  q s 1 "a"%string = (None, true) /\ own s 0 1 /\
  q (fst (run (mbn_build ++ [LMap 0]))) 0 "d"%string = (Some 6, false) /\ q (fst (run (mbn_build ++ [LMap 0]))) 0 "b"%string = (Some 1, false).
Proof. cbn zeta. repeat split; vm_compute; try reflexivity; repeat constructor. Qed.
