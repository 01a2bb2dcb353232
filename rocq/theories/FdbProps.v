(** Properties of debug_create_by_type. *)
From Coq Require Import List Bool Arith Lia.
From Verif Require Import Prelude FactoryModel FactorySpec FactoryProofs FactoryProps FdbModel FdbSpec.
Import ListNotations.

Section D.
Context (tname : nat -> option nat).
Context (pmatch : nat -> nat -> bool).
Context (U : names_unique tname).

Definition typed (e : ovr) : Prop := exists o, o_orig e = Some o /\ o_name e = tname o.
Definition TInv (s : factory) : Prop := Forall typed (tovr s) /\ NoDup (map o_orig (tovr s)).
Lemma typed_match o e : typed e -> (match_orig tname o e = true <-> o_orig e = Some o).
Proof.
  intros (x & E & N). rewrite (match_orig_typed tname U x e o E N), Nat.eqb_eq, E. split; congruence.
Qed.
Lemma NoDup_snoc {A} (l : list A) x : NoDup l -> ~ In x l -> NoDup (l ++ [x]).
Proof. intros H N. apply NoDup_rev in H. rewrite <- (rev_involutive l). change [x] with (rev [x]). rewrite <- rev_app_distr. apply NoDup_rev. cbn. constructor; auto. now rewrite <- in_rev. Qed.
Lemma tinv ops : by_type_only ops -> TInv (frun tname ops).
Proof.
  induction ops as [|op ops IH] using rev_ind; intros B; [split; constructor|]. apply Forall_app in B as (B & B'). specialize (IH B). inversion B' as [|? ? B0 _]; subst.
  unfold frun. rewrite fold_left_app. cbn [fold_left]. fold (frun tname ops). destruct IH as (T1 & T2). destruct op as [t|o t r| |o t p]; cbn [fstep]; [now split| | |].
  - unfold set_type_by_type, TInv. set (s := ensure tname (ensure tname (frun tname ops) o) t). assert (E : tovr s = tovr (frun tname ops)) by (unfold s; now rewrite !ensure_tovr). rewrite E.
    destruct (existsb (match_orig tname o) (tovr (frun tname ops))) eqn:X; [destruct r|]; cbn [tovr].
    + split.
      * apply Forall_forall. intros e I. apply in_map_iff in I as (e0 & <- & I). rewrite Forall_forall in T1. destruct (match_orig tname o e0); [exists o; auto|auto].
      * rewrite map_map. erewrite map_ext_in; [exact T2|]. intros e I. cbn. destruct (match_orig tname o e) eqn:M; auto. cbn. rewrite Forall_forall in T1. apply typed_match in M; auto.
    + rewrite E. now split.
    + split; [apply Forall_app; split; auto; constructor; [exists o; auto|constructor]|]. rewrite map_app. cbn. apply NoDup_snoc; auto. intros I. apply in_map_iff in I as (e & Eo & I).
      apply not_true_iff_false in X. apply X. apply existsb_exists. exists e. split; auto. rewrite Forall_forall in T1. apply typed_match; auto.
  - contradiction.
  - unfold set_inst_by_type, TInv. destruct (inst_exists _ _ _ _ _); cbn [tovr]; rewrite !ensure_tovr; now split.
Qed.
Lemma type_part ops x : by_type_only ops ->
  map (fun e => (o_orig e, o_type e)) (filter (match_orig tname x) (tovr (frun tname ops))) = match type_choice ops x with Some t => [(Some x, t)] | None => [] end.
Proof.
  intros B. destruct (type_choice_ok tname pmatch U ops B x) as (H1 & H2). destruct (tinv ops B) as (T1 & T2). destruct (filter _ _) as [|e l] eqn:E; [now rewrite H2|]. specialize (H1 e l eq_refl). inversion H1 as [|? ? He Hl]; subst.
  rewrite He. assert (F : forall y, In y (e :: l) -> o_orig y = Some x). { intros y I. rewrite <- E in I. apply filter_In in I as (I & M). rewrite Forall_forall in T1. apply (typed_match x y); auto. }
  assert (N : NoDup (map o_orig (e :: l))). { rewrite <- E. clear - T2. induction (tovr (frun tname ops)) as [|a m IH]; [constructor|]. cbn in *. inversion T2 as [|? ? K T2']; subst. destruct (match_orig tname x a); auto. cbn. constructor; auto.
    intros I. apply K. apply in_map_iff in I as (y & Ey & I). apply filter_In in I as (I & _). apply in_map_iff. eauto. }
  destruct l as [|e' l]; [cbn; rewrite F; [reflexivity|now left]|]. exfalso. cbn in N. inversion N as [|? ? K _]; subst. apply K. left. rewrite (F e (or_introl eq_refl)), (F e' (or_intror (or_introl eq_refl))). reflexivity.
Qed.
Definition iview (x : nat) (l : list (nat * nat)) : list ovr := map (fun r => Ovr (fst r) (tname x) (Some x) (snd r)) l.
Lemma inst_part ops x : by_type_only ops -> iovr (frun tname ops) x = iview x (inst_set ops x).
Proof.
  induction ops as [|op ops IH] using rev_ind; intros B; [reflexivity|]. apply Forall_app in B as (B & B'). specialize (IH B). inversion B' as [|? ? B0 _]; subst.
  unfold frun, inst_set. rewrite !fold_left_app. cbn [fold_left]. fold (frun tname ops) (inst_set ops x). destruct op as [t|o t r| |o t p]; cbn [fstep inst_set1]; [exact IH| |contradiction|].
  - unfold set_type_by_type. destruct (existsb _ _); [destruct r|]; cbn [iovr]; rewrite !ensure_iovr; exact IH.
  - unfold set_inst_by_type, inst_exists. destruct (Nat.eqb_spec o x) as [->|N]; cbn [andb].
    + rewrite !ensure_iovr, IH.
      assert (E : existsb (fun e => Nat.eqb (o_path e) p && oeqb (o_orig e) (Some x) && Nat.eqb (o_type e) t && oeqb (o_name e) (tname x)) (iview x (inst_set ops x)) = existsb (fun r => Nat.eqb (fst r) p && Nat.eqb (snd r) t) (inst_set ops x)).
      { unfold iview. generalize (inst_set ops x). intros l. induction l as [|[a b] l IHl]; [reflexivity|]. cbn [map existsb fst snd]. cbn [o_path o_orig o_type o_name oeqb]. rewrite IHl, Nat.eqb_refl.
        assert (oeqb (tname x) (tname x) = true) as -> by (destruct (tname x); cbn; auto; apply Nat.eqb_refl). now rewrite !andb_true_r. }
      rewrite E. destruct (existsb (fun r => _) (inst_set ops x)); cbn [negb iovr].
      * now rewrite !ensure_iovr.
      * rewrite upd_eq. unfold iview. rewrite map_app. reflexivity.
    + destruct (existsb _ _); cbn [iovr]; rewrite !ensure_iovr; [exact IH|]. rewrite upd_neq by auto. exact IH.
Qed.

Definition view (x : bool * ovr) : option nat * (option nat * nat) := (o_orig (snd x), (if fst x then Some (o_path (snd x)) else None, o_type (snd x))).
Lemma found_ok ops path x : by_type_only ops -> map view (found tname pmatch (frun tname ops) path x) = map (fun r => (Some x, r)) (applicable pmatch ops path x).
Proof.
  intros B. unfold found, applicable. rewrite !map_app. f_equal.
  - destruct path as [p|]; [|reflexivity]. rewrite (inst_part ops x B). unfold iview. generalize (inst_set ops x). intros l. induction l as [|[a b] l IH]; [reflexivity|]. cbn [map filter].
    assert (match_orig tname x (Ovr (fst (a, b)) (tname x) (Some x) (snd (a, b))) = true) as -> by (unfold match_orig; cbn; now rewrite Nat.eqb_refl). cbn [andb o_path fst snd]. destruct (pmatch a p); cbn [map]; rewrite IH; reflexivity.
  - pose proof (type_part ops x B) as T. rewrite map_map. destruct (type_choice ops x) as [t|].
    + destruct (filter _ _) as [|e [|e' l]]; try discriminate. cbn in T. injection T as T1 T2. cbn. unfold view. cbn. now rewrite T1, T2.
    + destruct (filter _ _); [reflexivity|discriminate].
Qed.
Lemma found_matches s path x : map snd (found tname pmatch s path x) = matches tname pmatch s path x.
Proof.
  unfold found, matches. rewrite map_app. f_equal; [destruct path; [|reflexivity]|]; rewrite map_map; apply map_id.
Qed.
Lemma marked_ovr l : map e_ovr (marked l) = map snd l.
Proof. destruct l as [|[i e] l]; [reflexivity|]. cbn. f_equal. rewrite map_map. reflexivity. Qed.
Lemma debug_find s path : forall fuel info x, find_debug tname pmatch fuel s path (map e_ovr info) x = (fst (debug tname pmatch fuel s path info x), map e_ovr (snd (debug tname pmatch fuel s path info x))).
Proof.
  induction fuel as [|fuel IH]; intros info x; [reflexivity|]. cbn [find_debug debug]. destruct (loop_index 0 (map e_ovr info) x); [reflexivity|]. rewrite <- found_matches.
  destruct (found tname pmatch s path x) as [|[i e] l]; [reflexivity|]. cbn [map snd]. destruct (Nat.eqb (o_type e) x).
  - cbn [fst snd]. rewrite map_app, marked_ovr. reflexivity.
  - rewrite <- IH. rewrite map_app, marked_ovr. reflexivity.
Qed.
Lemma debug_total ops path : exists n, forall fuel, n <= fuel -> forall x, exists t info, debug tname pmatch fuel (frun tname ops) path [] x = (FType t, info).
Proof.
  destruct (typed_finite tname pmatch (frun tname ops) (facinv_run tname ops) path) as (D & HD). exists (2 * length D + 2). intros fuel H x.
  destruct (find_debug_total tname pmatch U _ (facinv_run tname ops) path D HD fuel [] x false) as (info' & E); [discriminate| |].
  - unfold bound. assert (missing D [] <= length D) by (unfold missing; clear; induction D as [|a D IH]; [reflexivity|]; cbn [filter]; destruct (in_dec Nat.eq_dec a (origs [])); cbn [length]; lia). lia.
  - pose proof (debug_find (frun tname ops) path fuel [] x) as F. cbn [map] in F. rewrite F in E. destruct (debug tname pmatch fuel (frun tname ops) path [] x) as [r info]. cbn [fst snd] in E. injection E as E _. rewrite E. eauto.
Qed.

Lemma row_marked x f l : map view f = map (fun r => (Some x, r)) l -> map row_of (marked f) = rows x l.
Proof.
  intros E. destruct f as [|[i e] f], l as [|[q y] l]; try discriminate; [reflexivity|]. cbn [map] in E. injection E as E1 E2 E3 E. unfold view in *. cbn [fst snd] in *. cbn [marked map rows]. unfold row_of at 1. cbn [e_sel e_ovr e_inst fst snd]. rewrite E1, E2, E3. f_equal.
  rewrite map_map. clear - E. revert l E. induction f as [|[i e] f IH]; intros [|[q y] l] E; try discriminate; [reflexivity|]. cbn [map] in *. injection E as E1 E2 E3 E. rewrite <- (IH l E). f_equal. unfold row_of. cbn in *. now rewrite E1, E2, E3.
Qed.
Lemma marked_origs x f l : map view f = map (fun r => (Some x, r)) l -> forall y, In y (origs (map e_ovr (marked f))) <-> y = x /\ f <> [].
Proof.
  rewrite marked_ovr. revert l. induction f as [|[i e] f IH]; intros l E y; [cbn; tauto|]. destruct l as [|[q z] l]; [discriminate|]. cbn [map] in E. injection E as E1 E2 E3 E. cbn in *. rewrite E1. cbn. rewrite (IH l E). split; [intros [->|(-> & _)]; split; auto; discriminate|intros (-> & _); auto].
Qed.
Lemma debug_tells ops path : by_type_only ops -> forall fuel info info' seen x t out,
  debug tname pmatch fuel (frun tname ops) path info x = (FType t, out) ->
  (forall y, In y (origs (map e_ovr info)) <-> In y seen) -> (forall y, In y (origs info') <-> In y seen) ->
  exists r, map row_of out = map row_of info ++ r /\ tells pmatch ops path seen x r t /\ find tname pmatch fuel false (frun tname ops) path info' x = FType t.
Proof.
  intros B. induction fuel as [|fuel IH]; intros info info' seen x t out E HI HI'; [discriminate|]. cbn [debug] in E. cbn [find].
  destruct (loop_index 0 (map e_ovr info) x) as [i|] eqn:L.
  - injection E as <- <-. assert (I : In x (origs (map e_ovr info))). { destruct (in_dec Nat.eq_dec x (origs (map e_ovr info))) as [|N]; auto. apply (loop_index_none pmatch _ _ 0) in N. congruence. }
    apply HI in I. exists []. rewrite app_nil_r. split; [reflexivity|]. split; [now apply T_loop|]. destruct (loop_index 0 info' x) eqn:L'; [reflexivity|]. apply (loop_index_none pmatch) in L'. exfalso. now apply L', HI'.
  - apply (loop_index_none pmatch) in L. assert (NS : ~ In x seen) by (intros I; now apply L, HI). assert (loop_index 0 info' x = None) as -> by (apply (loop_index_none pmatch); intros I; now apply NS, HI').
    pose proof (found_ok ops path x B) as FO. rewrite <- found_matches. destruct (found tname pmatch (frun tname ops) path x) as [|[i e] f] eqn:F.
    + injection E as <- <-. exists []. rewrite app_nil_r. split; [reflexivity|]. split; [|reflexivity]. apply T_none; auto. destruct (applicable pmatch ops path x); [reflexivity|discriminate].
    + cbn [map snd] in *. pose proof (row_marked x ((i, e) :: f) (applicable pmatch ops path x) FO) as RM. pose proof (marked_origs x ((i, e) :: f) (applicable pmatch ops path x) FO) as MO.
      destruct (applicable pmatch ops path x) as [|[q y] l] eqn:A; [discriminate|]. cbn [map] in FO. injection FO as F1 F2 F3 F4. cbn [snd fst] in *. rewrite F3 in E. rewrite F3. destruct (Nat.eqb_spec y x) as [Ey|N].
      * rewrite Ey in RM, A. clear F3. clear Ey y. assert (t = x /\ out = info ++ marked ((i, e) :: f)) as (-> & ->) by (split; congruence). exists (rows x ((q, x) :: l)). rewrite map_app, RM. split; [reflexivity|]. split; [|reflexivity]. now apply T_self.
      * destruct (IH _ (info' ++ [e]) (x :: seen) y t out E) as (r & R1 & R2 & R3).
        -- intros z. unfold origs. rewrite map_app, flat_map_app, in_app_iff. fold (origs (map e_ovr info)). fold (origs (map e_ovr (marked ((i, e) :: f)))). rewrite HI, MO. cbn. split; [intros [|(-> & _)]; auto|intros [<-|]; auto]. right. split; auto. discriminate.
        -- intros z. unfold origs. rewrite flat_map_app, in_app_iff. fold (origs info'). rewrite HI'. cbn. rewrite F1. cbn. intuition.
        -- exists (rows x ((q, y) :: l) ++ r). rewrite R1, map_app, RM, <- app_assoc. split; [reflexivity|]. split; [|exact R3]. eapply T_step; eauto.
Qed.
Lemma ensure_ops ops x : by_type_only ops -> exists ops', by_type_only ops' /\ ensure tname (frun tname ops) x = frun tname ops' /\ (ops' = ops \/ ops' = ops ++ [Reg x]).
Proof.
  intros B. unfold ensure. destruct (types (frun tname ops) x); [exists ops; auto|]. exists (ops ++ [Reg x]). split; [apply Forall_app; split; auto; repeat constructor|]. split; auto. unfold frun. rewrite fold_left_app. reflexivity.
Qed.
Lemma tells_reg ops x path : forall seen y r t, tells pmatch (ops ++ [Reg x]) path seen y r t -> tells pmatch ops path seen y r t.
Proof.
  assert (A : forall y, applicable pmatch (ops ++ [Reg x]) path y = applicable pmatch ops path y) by (intros y; unfold applicable, inst_set, type_choice; rewrite !fold_left_app; reflexivity).
  intros seen y r t H. induction H as [| | |]; [apply T_loop|apply T_none|eapply T_self|eapply T_step]; eauto; now rewrite <- A.
Qed.
Lemma find_reg fuel pristine ops x path info y : find tname pmatch fuel pristine (register tname (frun tname ops) x) path info y = find tname pmatch fuel pristine (frun tname ops) path info y.
Proof.
  assert (A : forall y, matches tname pmatch (register tname (frun tname ops) x) path y = matches tname pmatch (frun tname ops) path y) by reflexivity.
  assert (A' : forall fuel info y, find_debug tname pmatch fuel (register tname (frun tname ops) x) path info y = find_debug tname pmatch fuel (frun tname ops) path info y).
  { induction fuel0 as [|f IH]; intros i z; [reflexivity|]. cbn [find_debug]. rewrite A. destruct (loop_index 0 i z); [reflexivity|]. destruct (matches tname pmatch (frun tname ops) path z); [reflexivity|]. destruct (Nat.eqb _ _); auto. }
  revert info y. induction fuel as [|f IH]; intros i z; [reflexivity|]. cbn [find]. rewrite A, A'. destruct (loop_index 0 i z); [reflexivity|]. destruct (matches tname pmatch (frun tname ops) path z); [reflexivity|]. destruct (Nat.eqb _ _); auto.
Qed.

(** With overrides by type and unique names debug_create_by_type ends; its rows are, type by type
    along the chain that is followed, all overrides that apply, marked as ignored except for the
    first of each type, and the type it names is the one that a request then creates. *)
Theorem C222_debug : forall ops req path, by_type_only ops -> exists r t, tells pmatch ops path [] req r t /\
  exists n, forall fuel, n <= fuel ->
    (exists s', debug_create tname pmatch fuel (frun tname ops) req path = (FType t, r, s') /\
      create_by_type tname pmatch fuel false s' req path = FType t) /\
    create_by_type tname pmatch fuel false (frun tname ops) req path = FType t.
Proof.
  intros ops req path B. destruct (ensure_ops ops req B) as (ops' & B' & E & K).
  destruct (debug_total ops' path) as (n & H).
  assert (G : forall fuel, n <= fuel -> exists r t, tells pmatch ops path [] req r t /\ (exists info, debug tname pmatch fuel (frun tname ops') path [] req = (FType t, info) /\ map row_of info = r) /\ find tname pmatch fuel false (frun tname ops') path [] req = FType t /\ find tname pmatch fuel false (frun tname ops) path [] req = FType t).
  { intros fuel Hf. destruct (H fuel Hf req) as (t & info & D). destruct (debug_tells ops' path B' fuel [] [] [] req t info D) as (r & R1 & R2 & R3); [cbn; tauto|cbn; tauto|].
    exists r, t. split; [destruct K as [->| ->]; [exact R2|now apply tells_reg in R2]|]. split; [exists info; auto|]. split; [exact R3|].
    destruct K as [->|K]; [exact R3|]. rewrite <- R3, K. unfold frun at 2. rewrite fold_left_app. cbn [fold_left fstep]. fold (frun tname ops). symmetry. apply find_reg. }
  destruct (G n (le_n n)) as (r & t & T & _). exists r, t. split; [exact T|]. exists n. intros fuel Hf. destruct (G fuel Hf) as (r' & t' & T' & (info & D & R) & F1 & F2).
  assert (DET : forall seen y a b, tells pmatch ops path seen y a b -> forall a' b', tells pmatch ops path seen y a' b' -> a = a' /\ b = b').
  { clear. intros seen y a b H. induction H as [seen x I|seen x I A|seen x q l I A|seen x q y l r t I A N H IH]; intros a' b' H'; inversion H'; subst; try tauto; try congruence.
    - split; [|reflexivity]. congruence.
    - assert (q0 = q /\ y0 = y /\ l0 = l) as (-> & -> & ->) by (split; [|split]; congruence). match goal with T : tells _ _ _ (x :: seen) y _ _ |- _ => destruct (IH _ _ T) as (-> & ->) end. auto. }
  destruct (DET _ _ _ _ T _ _ T') as (<- & <-).
  unfold debug_create, create_by_type. rewrite E, D, R. split; [|exact F2]. exists (frun tname ops'). auto.
Qed.

(** In particular, overrides that lead somewhere are followed to the end. *)
Lemma choice_applicable ops path x : choice pmatch ops path x = match applicable pmatch ops path x with [] => None | r :: _ => Some (snd r) end.
Proof.
  assert (G : forall p, match filter (fun r => pmatch (fst r) p) (inst_set ops x) with [] => inst_choice pmatch ops p x = None | r :: _ => inst_choice pmatch ops p x = Some (snd r) end).
  { intros p. induction ops as [|op ops IH] using rev_ind; [reflexivity|]. rewrite inst_choice_app. unfold inst_set in *. rewrite fold_left_app. cbn [fold_left]. fold (inst_set ops x) in *. destruct op as [t|o t r|a b r|o t q]; cbn [inst_set1 inst_choice];
      try (destruct (filter _ (inst_set ops x)); rewrite IH; reflexivity).
    destruct (Nat.eqb o x); cbn [andb]; [|destruct (filter _ (inst_set ops x)); rewrite IH; reflexivity].
    destruct (existsb (fun r => Nat.eqb (fst r) q && Nat.eqb (snd r) t) (inst_set ops x)) eqn:EX; cbn [negb].
    - destruct (filter _ (inst_set ops x)) as [|r0 l0] eqn:F; rewrite IH; [|reflexivity]. apply existsb_exists in EX as ([a b] & I & EQ). cbn in EQ. apply andb_true_iff in EQ as (E1 & E2). apply Nat.eqb_eq in E1, E2. subst.
      destruct (pmatch q p) eqn:PM; [|reflexivity]. exfalso. assert (X : In (q, t) (filter (fun r => pmatch (fst r) p) (inst_set ops x))) by (apply filter_In; auto). now rewrite F in X.
    - rewrite filter_app. cbn [filter fst]. destruct (filter _ (inst_set ops x)) as [|r0 l0]; rewrite IH; cbn [app]; [|reflexivity]. now destruct (pmatch q p). }
  unfold choice, applicable. destruct path as [p|]; [|cbn; now destruct (type_choice ops x)]. specialize (G p). destruct (filter _ (inst_set ops x)) as [|r l]; rewrite G; cbn; [now destruct (type_choice ops x)|reflexivity].
Qed.
Theorem C222_resolves : forall ops req path r t u, by_type_only ops -> tells pmatch ops path [] req r t -> resolves pmatch ops path req u -> t = u.
Proof.
  intros ops req path r t u B T R. destruct (C222_debug ops req path B) as (r' & t' & _ & n & H). destruct (C36_chain tname pmatch ops path req u false U B R) as (m & H').
  destruct (C222_debug ops req path B) as (r2 & t2 & T2 & n2 & H2).
  assert (t2 = u). { destruct (H2 (n2 + m) ltac:(lia)) as (_ & X). rewrite (H' (n2 + m) ltac:(lia)) in X. congruence. }
  assert (DET : forall seen y a b, tells pmatch ops path seen y a b -> forall a' b', tells pmatch ops path seen y a' b' -> a = a' /\ b = b').
  { clear. intros seen y a b H. induction H as [seen x I|seen x I A|seen x q l I A|seen x q y l r t I A N H IH]; intros a' b' H'; inversion H'; subst; try tauto; try congruence.
    - split; [|reflexivity]. congruence.
    - assert (q0 = q /\ y0 = y /\ l0 = l) as (-> & -> & ->) by (split; [|split]; congruence). match goal with T : tells _ _ _ (x :: seen) y _ _ |- _ => destruct (IH _ _ T) as (-> & ->) end. auto. }
  destruct (DET _ _ _ _ T _ _ T2) as (_ & ->). assumption.
Qed.
End D.
Print Assumptions C222_debug.
Print Assumptions C222_resolves.

(** Type 0 has two instance overrides, of which the second is ignored, and a type override; type 1
    leads to 2. *)
Definition ex_ops : list fop := [TypeT 0 5 true; InstT 0 1 7; InstT 0 4 8; InstT 0 3 9; TypeT 1 2 true; InstT 0 1 7].
Definition ex_match (pat p : nat) : bool := Nat.leb pat p.
Example C222_example : by_type_only ex_ops /\
  (exists s', debug_create (fun t => Some t) ex_match 10 (frun (fun t => Some t) ex_ops) 0 (Some 8) =
     (FType 2, [DRow true (Some 0) (Some 7) 1; DRow false (Some 0) (Some 8) 4; DRow false (Some 0) None 5; DRow true (Some 1) None 2], s')) /\
  applicable ex_match ex_ops (Some 8) 0 = [(Some 7, 1); (Some 8, 4); (None, 5)] /\
  (exists s', debug_create (fun t => Some t) ex_match 10 (frun (fun t => Some t) [TypeT 0 1 true; TypeT 1 0 true]) 0 None = (FType 0, [DRow true (Some 0) None 1; DRow true (Some 1) None 0], s')).
Proof. split; [repeat constructor|]. split; [eexists; vm_compute; reflexivity|]. split; [reflexivity|]. eexists; vm_compute; reflexivity. Qed.
