From Coq Require Import List Bool Arith Lia.
From Verif Require Import Prelude FactoryModel FactorySpec.
Import ListNotations.
Open Scope nat_scope.

Section Proofs.
Context (tname : nat -> option nat) (pmatch : nat -> nat -> bool).
Notation match_orig := (match_orig tname).
Notation frun := (frun tname).
Notation fstep := (fstep tname).
Notation matches := (matches tname pmatch).
Notation find := (find tname pmatch).
Notation find_debug := (find_debug tname pmatch).

Lemma opt_eqb_true a b : opt_eqb a b = true <-> exists x, a = Some x /\ b = Some x.
Proof.
  destruct a as [x|], b as [y|]; cbn; split; try discriminate;
    try (intros (z & A & B); congruence).
  - intros H. apply Nat.eqb_eq in H. subst. eauto.
  - intros (z & A & B). inversion A; inversion B; subst. apply Nat.eqb_refl.
Qed.
Lemma opt_eqb_some a x : opt_eqb a (Some x) = true <-> a = Some x.
Proof.
  rewrite opt_eqb_true. split; [intros (z & -> & E); congruence|eauto].
Qed.

(** ** Invariant of all histories *)
Definition anon_named (s : factory) (n : nat) : Prop :=
  exists e, In e (tovr s) /\ o_orig e = None /\ o_name e = Some n.
Definition settled (s : factory) (t : nat) : Prop :=
  exists m, tname t = Some m /\ names s m <> None /\ ~ anon_named s m.
Record FacInv (s : factory) : Prop := {
  fi_pool : forall n t, names s n = Some t -> settled s t;
  fi_anon_target : forall e, In e (tovr s) -> o_orig e = None -> settled s (o_type e);
  fi_anon_name : forall e, In e (tovr s) -> o_orig e = None ->
    exists n, o_name e = Some n /\ names s n <> None;
  fi_typed : forall e o, In e (tovr s) -> o_orig e = Some o -> o_name e = tname o;
  fi_inst : forall x e, In e (iovr s x) -> o_orig e = Some x /\ o_name e = tname x;
  fi_fin : exists D, forall x, iovr s x <> [] -> In x D
}.

Lemma facinv0 : FacInv factory0.
Proof.
  clear pmatch. constructor; cbn; try discriminate; try tauto.
  exists []. congruence.
Qed.

Lemma settled_mono s s' t :
  (forall n, names s n <> None -> names s' n <> None) ->
  (forall n, anon_named s' n -> anon_named s n \/ names s n = None) ->
  settled s t -> settled s' t.
Proof.
  intros H1 H2 (m & A & B & C). exists m. split; [auto|]. split; [auto|].
  intros D. destruct (H2 m D); [auto|congruence].
Qed.

Lemma facinv_register s t : FacInv s -> FacInv (register tname s t).
Proof.
  intros [P AT AN T I F]. unfold register.
  assert (K : forall n, names s n <> None ->
    names (register tname s t) n <> None).
  { intros n H. unfold register. cbn. destruct (tname t) as [m|]; [|auto].
    destruct (names s m) eqn:E; [auto|]. unfold upd. destruct (Nat.eqb n m); congruence. }
  unfold register in K. cbn [names] in K.
  assert (M : forall x, settled s x -> settled (register tname s t) x).
  { intros x. apply settled_mono; [exact K|]. intros n (e & H). left. exists e. exact H. }
  unfold register in M.
  constructor; cbn [names tovr iovr] in *; auto.
  - intros n x H. destruct (tname t) as [m|] eqn:Et; [|apply M, (P n x H)].
    destruct (names s m) eqn:E; [apply M, (P n x H)|].
    unfold upd in H. destruct (Nat.eqb_spec n m) as [->|Hne]; [|apply M, (P n x H)].
    inversion H; subst x. exists m. split; [auto|]. cbn [names tovr]. split.
    + rewrite upd_eq. congruence.
    + intros (e & He & H1 & H2). destruct (AN e He H1) as (n' & N1 & N2).
      rewrite H2 in N1. inversion N1; subst. contradiction.
  - intros e He H1. destruct (AN e He H1) as (n & A & B). exists n. auto.
Qed.
Lemma facinv_ensure s t : FacInv s -> FacInv (ensure tname s t).
Proof. unfold ensure. destruct (types s t); auto using facinv_register. Qed.
Lemma ensure_tovr s t : tovr (ensure tname s t) = tovr s.
Proof. unfold ensure, register. destruct (types s t); reflexivity. Qed.
Lemma ensure_iovr s t : iovr (ensure tname s t) = iovr s.
Proof. unfold ensure, register. destruct (types s t); reflexivity. Qed.

Lemma facinv_typeT s o t r : FacInv s -> FacInv (set_type_by_type tname s o t r).
Proof.
  intros H0. unfold set_type_by_type.
  assert (H : FacInv (ensure tname (ensure tname s o) t)) by auto using facinv_ensure.
  set (s1 := ensure tname (ensure tname s o) t) in *. clearbody s1. clear s H0.
  destruct H as [P AT AN T I F].
  destruct (existsb (match_orig o) (tovr s1)); [destruct r|].
  - assert (AN' : forall n, anon_named (Fac (names s1) (types s1)
        (map (fun e => if match_orig o e then Ovr (o_path e) (tname o) (Some o) t else e) (tovr s1))
        (iovr s1)) n -> anon_named s1 n).
    { intros n (e & He & H1 & H2). cbn in He. apply in_map_iff in He as (e0 & E & He0).
      destruct (match_orig o e0); subst e; [discriminate|]. exists e0. auto. }
    assert (M : forall x, settled s1 x -> settled (Fac (names s1) (types s1)
        (map (fun e => if match_orig o e then Ovr (o_path e) (tname o) (Some o) t else e) (tovr s1))
        (iovr s1)) x).
    { intros x. apply settled_mono; cbn; auto. }
    constructor; cbn [names tovr iovr]; auto.
    + intros n x H. apply M, (P n x H).
    + intros e He H1. apply in_map_iff in He as (e0 & E & He0).
      destruct (match_orig o e0); subst e; [discriminate|]. apply M, AT; auto.
    + intros e He H1. apply in_map_iff in He as (e0 & E & He0).
      destruct (match_orig o e0); subst e; [discriminate|]. apply AN; auto.
    + intros e o' He H1. apply in_map_iff in He as (e0 & E & He0).
      destruct (match_orig o e0); subst e; [cbn in *; congruence|]. apply T; auto.
  - constructor; auto.
  - assert (AN' : forall n, anon_named (Fac (names s1) (types s1)
        (tovr s1 ++ [Ovr 0 (tname o) (Some o) t]) (iovr s1)) n -> anon_named s1 n).
    { intros n (e & He & H1 & H2). cbn in He. apply in_app_or in He as [He|[<-|[]]];
        [|discriminate]. exists e. auto. }
    assert (M : forall x, settled s1 x -> settled (Fac (names s1) (types s1)
        (tovr s1 ++ [Ovr 0 (tname o) (Some o) t]) (iovr s1)) x).
    { intros x. apply settled_mono; cbn; auto. }
    constructor; cbn [names tovr iovr]; auto.
    + intros n x H. apply M, (P n x H).
    + intros e He H1. apply in_app_or in He as [He|[<-|[]]]; [|discriminate]. apply M, AT; auto.
    + intros e He H1. apply in_app_or in He as [He|[<-|[]]]; [|discriminate]. apply AN; auto.
    + intros e o' He H1. apply in_app_or in He as [He|[<-|[]]]; [|cbn in *; congruence].
      apply T; auto.
Qed.

Lemma facinv_typeN s n1 n2 r : FacInv s -> FacInv (set_type_by_name tname s n1 n2 r).
Proof.
  intros H. unfold set_type_by_name. destruct (names s n2) as [t|] eqn:E2; [|auto].
  destruct (Nat.eqb n1 n2); [auto|].
  pose proof H as [P AT AN T I F].
  destruct (existsb _ (tovr s)) eqn:EX; [destruct r; [|auto]|].
  - set (s1 := Fac _ _ _ _).
    assert (AN' : forall n, anon_named s1 n -> anon_named s n).
    { intros n (e & He & H1 & H2). cbn in He. apply in_map_iff in He as (e0 & E & He0).
      destruct (opt_eqb (o_name e0) (Some n1)); subst e; exists e0; auto. }
    assert (M : forall x, settled s x -> settled s1 x).
    { intros x. apply settled_mono; cbn; auto. }
    constructor; cbn [names tovr iovr s1]; auto.
    + intros n x Hx. apply M, (P n x Hx).
    + intros e He H1. apply in_map_iff in He as (e0 & E & He0).
      destruct (opt_eqb (o_name e0) (Some n1)); subst e; cbn in *.
      * apply M, (P n2 t E2).
      * apply M, AT; auto.
    + intros e He H1. apply in_map_iff in He as (e0 & E & He0).
      destruct (opt_eqb (o_name e0) (Some n1)); subst e; cbn in *; apply (AN e0); auto.
    + intros e o' He H1. apply in_map_iff in He as (e0 & E & He0).
      destruct (opt_eqb (o_name e0) (Some n1)); subst e; cbn in *; apply (T e0); auto.
  - set (s1 := Fac _ _ _ _).
    assert (K : forall n, names s n <> None -> names s1 n <> None).
    { intros n Hn. cbn. unfold upd. destruct (Nat.eqb n n1); congruence. }
    assert (AN' : forall n, anon_named s1 n -> anon_named s n \/ names s n = None).
    { intros n (e & He & H1 & H2). cbn in He. apply in_app_or in He as [He|[<-|[]]].
      - left. exists e. auto.
      - right. cbn in *. rewrite H1 in H2. inversion H2; subst. exact H1. }
    assert (M : forall x, settled s x -> settled s1 x).
    { intros x. apply settled_mono; auto. }
    constructor; cbn [names tovr iovr s1]; auto.
    + intros n x Hx. unfold upd in Hx. destruct (Nat.eqb_spec n n1).
      * inversion Hx; subst. apply M, (P n2 x E2).
      * apply M, (P n x Hx).
    + intros e He H1. apply in_app_or in He as [He|[<-|[]]].
      * apply M, AT; auto.
      * cbn. apply M, (P n2 t E2).
    + intros e He H1. apply in_app_or in He as [He|[<-|[]]].
      * destruct (AN e He H1) as (n & A & B). exists n. split; [auto|]. apply (K n B).
      * cbn in *. rewrite H1. exists n1. split; [auto|]. rewrite upd_eq. congruence.
    + intros e o' He H1. apply in_app_or in He as [He|[<-|[]]].
      * apply T; auto.
      * cbn in *. rewrite H1. reflexivity.
Qed.

Lemma facinv_inst s o t pat : FacInv s -> FacInv (set_inst_by_type tname s o t pat).
Proof.
  intros H0. unfold set_inst_by_type.
  assert (H : FacInv (ensure tname (ensure tname s o) t)) by auto using facinv_ensure.
  set (s1 := ensure tname (ensure tname s o) t) in *. clearbody s1. clear s H0.
  destruct (inst_exists tname s1 o t pat); [auto|].
  destruct H as [P AT AN T I F].
  constructor; cbn [names tovr iovr]; auto.
  - intros x e He. unfold upd in He. destruct (Nat.eqb_spec x o) as [->|]; [|auto].
    apply in_app_or in He as [He|[<-|[]]]; [auto|]. cbn. auto.
  - destruct F as [D HD]. exists (o :: D). intros x Hx. unfold upd in Hx.
    destruct (Nat.eqb_spec x o); [left; auto|right; auto].
Qed.

Lemma facinv_run ops : FacInv (frun ops).
Proof.
  unfold frun. assert (H : forall s, FacInv s -> FacInv (fold_left fstep ops s)).
  { induction ops as [|o ops IH]; intros s Hs; cbn; [auto|]. apply IH.
    destruct o; cbn [FactoryModel.fstep];
      auto using facinv_register, facinv_typeT, facinv_typeN, facinv_inst. }
  apply H, facinv0.
Qed.

(** ** Termination *)
Section Term.
Context (U : names_unique tname) (s : factory) (HI : FacInv s) (path : option nat).

Definition origs (info : list ovr) : list nat :=
  flat_map (fun e => match o_orig e with Some o => [o] | None => [] end) info.
Lemma loop_index_none info req : forall i,
  loop_index i info req = None <-> ~ In req (origs info).
Proof.
  induction info as [|e l IH]; intros i; cbn [loop_index].
  - cbn. tauto.
  - unfold origs. cbn [flat_map]. fold (origs l). rewrite in_app_iff.
    destruct (opt_eqb (o_orig e) (Some req)) eqn:E.
    + apply opt_eqb_some in E. rewrite E. cbn. split; [discriminate|tauto].
    + rewrite IH. assert (~ In req (match o_orig e with Some o => [o] | None => [] end)).
      { destruct (o_orig e) as [o|]; [|auto]. intros [->|[]].
        cbn in E. rewrite Nat.eqb_refl in E. discriminate. }
      tauto.
Qed.
Lemma loop_index_bound info req : forall i j, loop_index i info req = Some j -> j < i + length info.
Proof.
  induction info as [|e l IH]; intros i j; cbn [loop_index length]; [discriminate|].
  destruct (opt_eqb _ _).
  - intros [= <-]. lia.
  - intros H. apply IH in H. lia.
Qed.

Lemma in_matches req e : In e (matches s path req) ->
  match_orig req e = true /\ (In e (tovr s) \/ In e (iovr s req)).
Proof.
  unfold FactoryModel.matches. rewrite in_app_iff. intros [H|H].
  - destruct path; [|destruct H]. apply filter_In in H as [H1 H2].
    apply andb_true_iff in H2. tauto.
  - apply filter_In in H. tauto.
Qed.

(** an override found for [req] names it, or is an anonymous one *)
Lemma match_orig_req req e : In e (matches s path req) ->
  o_orig e = Some req \/ (o_orig e = None /\ ~ settled s req).
Proof.
  intros H. apply in_matches in H as [M [HT|HN]].
  - unfold FactoryModel.match_orig in M. apply orb_true_iff in M.
    destruct (o_orig e) as [o|] eqn:E.
    + left. destruct M as [M|M]; [now apply opt_eqb_some in M|].
      apply opt_eqb_true in M as (n & A & B). rewrite (fi_typed s HI e o HT E) in A.
      f_equal. eapply U; eauto.
    + right. split; [auto|]. destruct M as [M|M]; [discriminate|].
      apply opt_eqb_true in M as (n & A & B). intros (m & C & D & F).
      rewrite B in C. inversion C; subst. apply F. exists e. auto.
  - left. apply (fi_inst s HI req e HN).
Qed.
Lemma anon_match_settled req e : In e (matches s path req) -> o_orig e = None ->
  settled s (o_type e).
Proof.
  intros H E. apply in_matches in H as [M [HT|HN]].
  - apply (fi_anon_target s HI); auto.
  - destruct (fi_inst s HI req e HN). congruence.
Qed.

(** finitely many types can be overridden *)
Lemma typed_finite : exists D, forall req e, In e (matches s path req) ->
  o_orig e = Some req -> In req D.
Proof.
  destruct (fi_fin s HI) as [D HD]. exists (origs (tovr s) ++ D).
  intros req e H E. apply in_matches in H as [M [HT|HN]].
  - apply in_or_app. left. unfold origs. apply in_flat_map. exists e. split; [auto|].
    rewrite E. now left.
  - apply in_or_app. right. apply HD. intros X. rewrite X in HN. destruct HN.
Qed.

Definition missing (D : list nat) (info : list ovr) : nat :=
  length (filter (fun d => if in_dec Nat.eq_dec d (origs info) then false else true) D).
Lemma filter_le {A} (f g : A -> bool) l :
  (forall x, In x l -> g x = true -> f x = true) -> length (filter g l) <= length (filter f l).
Proof.
  induction l as [|a l IH]; intros H; cbn; [lia|].
  assert (IH' := IH (fun x Hx => H x (or_intror Hx))).
  destruct (g a) eqn:E.
  - rewrite (H a (or_introl eq_refl) E). cbn. lia.
  - destruct (f a); cbn; lia.
Qed.
Lemma filter_lt {A} (f g : A -> bool) l a :
  (forall x, In x l -> g x = true -> f x = true) -> In a l -> f a = true -> g a = false ->
  length (filter g l) < length (filter f l).
Proof.
  induction l as [|b l IH]; intros H Ha Hf Hg; [destruct Ha|]. cbn.
  destruct Ha as [->|Ha].
  - rewrite Hf, Hg. cbn. apply -> Nat.succ_le_mono. apply filter_le.
    intros; apply H; [now right|auto].
  - assert (IH' := IH (fun x Hx => H x (or_intror Hx)) Ha Hf Hg).
    destruct (g b) eqn:E.
    + rewrite (H b (or_introl eq_refl) E). cbn. lia.
    + destruct (f b); cbn; lia.
Qed.
Lemma missing_app D info l : missing D (info ++ l) <= missing D info.
Proof.
  unfold missing. apply filter_le. intros x _ H.
  destruct (in_dec Nat.eq_dec x (origs (info ++ l))) as [|N]; [discriminate|].
  destruct (in_dec Nat.eq_dec x (origs info)) as [Y|]; [|auto].
  exfalso. apply N. unfold origs in *. rewrite flat_map_app. apply in_or_app. auto.
Qed.
Lemma missing_lt D info l e req :
  In req D -> ~ In req (origs info) -> In e l -> o_orig e = Some req ->
  missing D (info ++ l) < missing D info.
Proof.
  intros HD HN He Ho. unfold missing. apply (filter_lt _ _ D req); auto.
  - intros x _ H. destruct (in_dec Nat.eq_dec x (origs (info ++ l))) as [|N]; [discriminate|].
    destruct (in_dec Nat.eq_dec x (origs info)) as [Y|]; [|auto].
    exfalso. apply N. unfold origs in *. rewrite flat_map_app. apply in_or_app. auto.
  - destruct (in_dec Nat.eq_dec req (origs info)); [contradiction|auto].
  - destruct (in_dec Nat.eq_dec req (origs (info ++ l))) as [|N]; [auto|].
    exfalso. apply N. unfold origs. rewrite flat_map_app. apply in_or_app. right.
    apply in_flat_map. exists e. split; [auto|]. rewrite Ho. now left.
Qed.

Definition bound (D : list nat) (info : list ovr) (req : nat) (b : bool) : nat :=
  2 * missing D info + (if b then 1 else 2).

(** [b] records that [req] is settled *)
Lemma find_debug_total D :
  (forall req e, In e (matches s path req) -> o_orig e = Some req -> In req D) ->
  forall fuel info req b, (b = true -> settled s req) -> bound D info req b <= fuel ->
    exists info', find_debug fuel s path info req = (FType (match fst (find_debug fuel s path info req) with FType t => t | _ => 0 end), info').
Proof.
  intros HD. induction fuel as [|k IH]; intros info req b Hb Hf; unfold bound in Hf.
  - destruct b; lia.
  - cbn [FactoryModel.find_debug].
    destruct (loop_index 0 info req) eqn:EL; [eexists; reflexivity|].
    apply loop_index_none in EL.
    destruct (matches s path req) as [|e l] eqn:EM; [eexists; reflexivity|].
    assert (He : In e (matches s path req)) by (rewrite EM; now left).
    destruct (Nat.eqb (o_type e) req); [eexists; reflexivity|].
    destruct (match_orig_req req e He) as [Ho|[Ho Hs]].
    + apply (IH (info ++ e :: l) (o_type e) false); [discriminate|]. unfold bound.
      pose proof (missing_lt D info (e :: l) e req (HD req e He Ho) EL (or_introl eq_refl) Ho).
      destruct b; lia.
    + apply (IH (info ++ e :: l) (o_type e) true).
      * intros _. apply (anon_match_settled req e He Ho).
      * unfold bound. pose proof (missing_app D info (e :: l)).
        destruct b; [|lia]. exfalso. apply Hs, Hb. reflexivity.
Qed.

Lemma find_total D pristine :
  (forall req e, In e (matches s path req) -> o_orig e = Some req -> In req D) ->
  forall fuel info req b, (b = true -> settled s req) -> bound D info req b <= fuel ->
    2 * length D + 2 <= fuel + (2 * length D - 2 * missing D info) + 2 ->
    forall F, F = fuel + (2 * length D + 2) ->
    (exists t, find F pristine s path info req = FType t) \/
    (pristine = true /\ find F pristine s path info req = FIndexError).
Proof.
  intros HD. induction fuel as [|k IH]; intros info req b Hb Hf HL F HF; unfold bound in Hf.
  - destruct b; lia.
  - subst F. rewrite Nat.add_succ_l. cbn [FactoryModel.find].
    destruct (loop_index 0 info req) as [i|] eqn:EL.
    + destruct pristine; [|left; eauto].
      destruct (find_debug_total D HD (S (k + (2 * length D + 2))) [] req false) as [info' E];
        [discriminate| |].
      { unfold bound. assert (missing D [] <= length D).
        { unfold missing. transitivity (length (filter (fun _ => true) D)).
          - apply filter_le. auto.
          - clear. induction D; cbn; [|apply le_n_S]; auto. }
        lia. }
      rewrite E. destruct (i <? length info'); [left; eauto|right; auto].
    + apply loop_index_none in EL.
      destruct (matches s path req) as [|e l] eqn:EM; [left; eauto|].
      assert (He : In e (matches s path req)) by (rewrite EM; now left).
      destruct (Nat.eqb (o_type e) req); [left; eauto|].
      destruct (match_orig_req req e He) as [Ho|[Ho Hs]].
      * pose proof (missing_lt D info [e] e req (HD req e He Ho) EL (or_introl eq_refl) Ho).
        apply (IH (info ++ [e]) (o_type e) false); auto; [discriminate| |].
        { unfold bound. destruct b; lia. }
        { destruct b; lia. }
      * pose proof (missing_app D info [e]).
        apply (IH (info ++ [e]) (o_type e) true); auto.
        { intros _. apply (anon_match_settled req e He Ho). }
        { unfold bound. destruct b; [|lia]. exfalso. apply Hs, Hb. reflexivity. }
        { destruct b; [|lia]. exfalso. apply Hs, Hb. reflexivity. }
Qed.

Lemma find_terminates pristine info req : exists n, forall F, n <= F ->
  (exists t, find F pristine s path info req = FType t) \/
  (pristine = true /\ find F pristine s path info req = FIndexError).
Proof.
  destruct typed_finite as [D HD].
  exists (2 * missing D info + 2 + 2 * length D + (2 * length D + 2)).
  intros F HF.
  apply (find_total D pristine HD (F - (2 * length D + 2)) info req false);
    [discriminate|unfold bound; lia|lia|lia].
Qed.
End Term.

(** ** What the overrides are, from the history *)
Section Hist.
Context (U : names_unique tname).

Lemma typed_ovr ops : by_type_only ops -> forall e, In e (tovr (frun ops)) ->
  exists o, o_orig e = Some o /\ o_name e = tname o.
Proof.
  intros HB. unfold frun.
  assert (G : forall ops s, by_type_only ops ->
    (forall e, In e (tovr s) -> exists o, o_orig e = Some o /\ o_name e = tname o) ->
    forall e, In e (tovr (fold_left fstep ops s)) -> exists o, o_orig e = Some o /\ o_name e = tname o).
  { clear. induction ops as [|op ops IH]; intros s HB H; cbn [fold_left]; [auto|].
    inversion HB as [|? ? Hop Hops]; subst. apply IH; [auto|].
    destruct op as [t|o t r|n1 n2 r|o t pat]; cbn [FactoryModel.fstep].
    - exact H.
    - unfold set_type_by_type. rewrite !ensure_tovr.
      destruct (existsb _ _); [destruct r|]; cbn [tovr].
      + intros e He. apply in_map_iff in He as (e0 & E & He0).
        destruct (match_orig o e0); subst e; [cbn; eauto|auto].
      + now rewrite !ensure_tovr.
      + intros e He. apply in_app_or in He as [He|[<-|[]]]; [auto|cbn; eauto].
    - destruct Hop.
    - unfold set_inst_by_type. destruct (inst_exists _ _ _ _ _); cbn [tovr];
        now rewrite !ensure_tovr. }
  apply G; auto. intros e [].
Qed.

Lemma match_orig_typed o e x :
  o_orig e = Some o -> o_name e = tname o -> match_orig x e = Nat.eqb o x.
Proof.
  intros H1 H2. unfold FactoryModel.match_orig. rewrite H1. cbn [opt_eqb].
  destruct (Nat.eqb_spec o x) as [->|Hne]; cbn [orb]; [auto|].
  apply not_true_iff_false. intros H. apply opt_eqb_true in H as (n & A & B).
  rewrite H2 in A. apply Hne. eapply U; eauto.
Qed.

Lemma type_choice_ok ops : by_type_only ops -> forall req,
  (forall e l, filter (match_orig req) (tovr (frun ops)) = e :: l ->
     Forall (fun e => type_choice ops req = Some (o_type e)) (e :: l)) /\
  (filter (match_orig req) (tovr (frun ops)) = [] -> type_choice ops req = None).
Proof.
  induction ops as [|op ops IH] using rev_ind; intros HB req.
  - cbn. split; [discriminate|reflexivity].
  - assert (HB' : by_type_only ops).
    { unfold by_type_only in *. apply Forall_app in HB. tauto. }
    assert (Hop : by_type_only [op]).
    { unfold by_type_only in *. apply Forall_app in HB. tauto. }
    specialize (IH HB').
    pose proof (typed_ovr ops HB') as TY.
    assert (E : frun (ops ++ [op]) = fstep (frun ops) op)
      by (unfold FactoryModel.frun; rewrite fold_left_app; reflexivity).
    assert (C : type_choice (ops ++ [op]) req = type_choice1 req (type_choice ops req) op)
      by (unfold type_choice; rewrite fold_left_app; reflexivity).
    rewrite E, C. clear E C.
    set (s := frun ops) in *.
    destruct op as [t|o t r|n1 n2 r|o t pat]; cbn [FactoryModel.fstep type_choice1].
    + exact (IH req).
    + unfold set_type_by_type. rewrite !ensure_tovr.
      destruct (existsb (match_orig o) (tovr s)) eqn:EX.
      * assert (Hsome : exists e l, filter (match_orig o) (tovr s) = e :: l).
        { apply existsb_exists in EX as (e & He & Me).
          assert (In e (filter (match_orig o) (tovr s))) by (apply filter_In; auto).
          destruct (filter (match_orig o) (tovr s)) as [|e' l]; [destruct H|eauto]. }
        destruct r; cbn [tovr].
        { destruct (Nat.eqb_spec o req) as [->|Hne].
          - (* all entries for req now produce t *)
            destruct Hsome as (e0 & l0 & H0). destruct (IH req) as [A _].
            specialize (A _ _ H0). inversion A as [|? ? A0 _]; subst. rewrite A0.
            split.
            + intros e l H. rewrite <- H. apply Forall_forall. intros x Hx.
              apply filter_In in Hx as [Hx Mx]. apply in_map_iff in Hx as (y & Ey & Hy).
              destruct (match_orig req y) eqn:My; subst x; [reflexivity|congruence].
            + intros H. exfalso.
              apply existsb_exists in EX as (e & He & Me).
              assert (In (Ovr (o_path e) (tname req) (Some req) t)
                (filter (match_orig req)
                  (map (fun e => if match_orig req e then Ovr (o_path e) (tname req) (Some req) t else e)
                     (tovr s)))) as X.
              { apply filter_In. split.
                - apply in_map_iff. exists e. rewrite Me. auto.
                - unfold FactoryModel.match_orig. cbn. now rewrite Nat.eqb_refl. }
              rewrite H in X. destruct X.
          - assert (F : filter (match_orig req)
              (map (fun e => if match_orig o e then Ovr (o_path e) (tname o) (Some o) t else e) (tovr s))
              = filter (match_orig req) (tovr s)).
            { clear -TY Hne U. induction (tovr s) as [|e l IHl]; cbn; [auto|].
              rewrite IHl by (intros; apply TY; now right).
              destruct (TY e (or_introl eq_refl)) as (o' & H1 & H2).
              rewrite (match_orig_typed o' e o H1 H2).
              destruct (Nat.eqb_spec o' o) as [->|].
              - rewrite (match_orig_typed o e req H1 H2).
                rewrite (match_orig_typed o (Ovr (o_path e) (tname o) (Some o) t) req eq_refl eq_refl).
                destruct (Nat.eqb_spec o req); [contradiction|reflexivity].
              - reflexivity. }
            rewrite F. exact (IH req). }
        { rewrite !ensure_tovr. destruct (Nat.eqb_spec o req) as [->|Hne]; [|exact (IH req)].
          destruct Hsome as (e0 & l0 & H0). destruct (IH req) as [A B].
          specialize (A _ _ H0). inversion A as [|? ? A0 _]; subst. rewrite A0.
          split; [|congruence]. intros e l H. rewrite <- A0. apply (proj1 (IH req)). exact H. }
      * cbn [tovr]. rewrite filter_app. cbn [filter].
        rewrite (match_orig_typed o (Ovr 0 (tname o) (Some o) t) req eq_refl eq_refl).
        destruct (Nat.eqb_spec o req) as [->|Hne].
        { assert (F : filter (match_orig req) (tovr s) = []).
          { destruct (filter (match_orig req) (tovr s)) as [|e l] eqn:F; [auto|].
            assert (In e (filter (match_orig req) (tovr s))) as X by (rewrite F; now left).
            apply filter_In in X as [X1 X2].
            assert (existsb (match_orig req) (tovr s) = true) by (apply existsb_exists; eauto).
            congruence. }
          rewrite F, (proj2 (IH req) F). cbn. split; [|discriminate].
          intros e l [= <- <-]. repeat constructor. }
        { rewrite app_nil_r. exact (IH req). }
    + inversion Hop as [|? ? X _]; destruct X.
    + unfold set_inst_by_type. destruct (inst_exists _ _ _ _ _); cbn [tovr];
        rewrite !ensure_tovr; exact (IH req).
Qed.

Lemma inst_choice_app h1 h2 p req :
  inst_choice pmatch (h1 ++ h2) p req =
  match inst_choice pmatch h1 p req with Some t => Some t | None => inst_choice pmatch h2 p req end.
Proof.
  induction h1 as [|op h IH]; cbn; [auto|]. destruct op; auto.
  destruct (Nat.eqb o req && pmatch pat p); auto.
Qed.

Lemma inst_choice_ok ops : by_type_only ops -> forall p req,
  match filter (fun e => match_orig req e && pmatch (o_path e) p) (iovr (frun ops) req) with
  | [] => inst_choice pmatch ops p req = None
  | e :: _ => inst_choice pmatch ops p req = Some (o_type e)
  end.
Proof.
  induction ops as [|op ops IH] using rev_ind; intros HB p req.
  - reflexivity.
  - assert (HB' : by_type_only ops).
    { unfold by_type_only in *. apply Forall_app in HB. tauto. }
    assert (E : frun (ops ++ [op]) = fstep (frun ops) op)
      by (unfold FactoryModel.frun; rewrite fold_left_app; reflexivity).
    rewrite E, inst_choice_app. specialize (IH HB' p req).
    pose proof (facinv_run ops) as FI.
    set (s := frun ops) in *. clear E.
    set (f := fun e => match_orig req e && pmatch (o_path e) p) in *.
    assert (SAME : forall s', iovr s' req = iovr s req ->
      inst_choice pmatch [op] p req = None ->
      match filter f (iovr s' req) with
      | [] => match inst_choice pmatch ops p req with Some t => Some t | None => inst_choice pmatch [op] p req end = None
      | e :: _ => match inst_choice pmatch ops p req with Some t => Some t | None => inst_choice pmatch [op] p req end = Some (o_type e)
      end).
    { intros s' E1 E2. rewrite E1, E2. destruct (filter f (iovr s req)); rewrite IH; reflexivity. }
    destruct op as [t|o t r|n1 n2 r|o t pat]; cbn [FactoryModel.fstep].
    + apply SAME; reflexivity.
    + apply SAME; [|reflexivity]. unfold set_type_by_type.
      destruct (existsb _ _); [destruct r|]; cbn [iovr]; now rewrite !ensure_iovr.
    + unfold by_type_only in HB. apply Forall_app in HB as [_ HB]. inversion HB as [|? ? X _]. destruct X.
    + unfold set_inst_by_type.
      set (s1 := ensure tname (ensure tname s o) t).
      assert (E1 : iovr s1 = iovr s) by (unfold s1; now rewrite !ensure_iovr).
      destruct (inst_exists tname s1 o t pat) eqn:EX.
      * rewrite E1. destruct (Nat.eqb_spec o req) as [->|Hne].
        { destruct (filter f (iovr s req)) as [|e l] eqn:F.
          - rewrite IH. cbn. rewrite Nat.eqb_refl. cbn [andb].
            destruct (pmatch pat p) eqn:PM; [|reflexivity]. exfalso.
            unfold inst_exists in EX. rewrite E1 in EX.
            apply existsb_exists in EX as (e & He & EX).
            repeat (apply andb_true_iff in EX as [EX ?]).
            apply Nat.eqb_eq in EX.
            assert (In e (filter f (iovr s req))) as X.
            { apply filter_In. split; [auto|]. unfold f. rewrite EX, PM, andb_true_r.
              destruct (fi_inst s FI req e He) as [H3 H4].
              rewrite (match_orig_typed req e req H3 H4). apply Nat.eqb_refl. }
            rewrite F in X. destruct X.
          - rewrite IH. reflexivity. }
        { pose proof (SAME s1) as SM. rewrite E1 in SM. apply SM; [auto|]. cbn.
          destruct (Nat.eqb_spec o req); [contradiction|reflexivity]. }
      * cbn [iovr]. rewrite E1. unfold upd. rewrite Nat.eqb_sym.
        destruct (Nat.eqb_spec o req) as [->|Hne].
        { rewrite filter_app. cbn [filter inst_choice]. rewrite Nat.eqb_refl. cbn [andb].
          unfold f at 2. rewrite (match_orig_typed req (Ovr pat (tname req) (Some req) t) req eq_refl eq_refl).
          rewrite Nat.eqb_refl. cbn [andb o_path].
          destruct (filter f (iovr s req)) as [|e l]; rewrite IH; cbn [app]; [|reflexivity].
          destruct (pmatch pat p); reflexivity. }
        { pose proof (SAME s eq_refl) as SM. apply SM. cbn.
          destruct (Nat.eqb_spec o req); [contradiction|reflexivity]. }
Qed.

Lemma choice_ok ops path req : by_type_only ops ->
  match matches (frun ops) path req with
  | [] => choice pmatch ops path req = None
  | e :: _ => choice pmatch ops path req = Some (o_type e)
  end.
Proof.
  intros HB. unfold FactoryModel.matches, choice.
  destruct (type_choice_ok ops HB req) as [A B].
  assert (TC : match filter (match_orig req) (tovr (frun ops)) with
    | [] => type_choice ops req = None | e :: _ => type_choice ops req = Some (o_type e) end).
  { destruct (filter (match_orig req) (tovr (frun ops))) as [|e l]; [auto|].
    specialize (A e l eq_refl). now inversion A. }
  destruct path as [p|]; cbn [app].
  - pose proof (inst_choice_ok ops HB p req) as IC.
    destruct (filter (fun e => match_orig req e && pmatch (o_path e) p) (iovr (frun ops) req)) as [|e l];
      rewrite IC; cbn [app]; [exact TC|reflexivity].
  - exact TC.
Qed.

(** heights of resolutions *)
Inductive resolves_n (hist : list fop) (path : option nat) : nat -> nat -> nat -> Prop :=
| rn_none : forall r, choice pmatch hist path r = None -> resolves_n hist path 0 r r
| rn_self : forall r, choice pmatch hist path r = Some r -> resolves_n hist path 0 r r
| rn_step : forall n r t u, choice pmatch hist path r = Some t -> t <> r ->
    resolves_n hist path n t u -> resolves_n hist path (S n) r u.
Lemma resolves_has_n hist path r t : resolves pmatch hist path r t ->
  exists n, resolves_n hist path n r t.
Proof.
  induction 1 as [| |? ? ? ? ? ? [n IH]]; eexists; eauto using resolves_n.
Qed.
Lemma resolves_n_det hist path n r t m t' :
  resolves_n hist path n r t -> resolves_n hist path m r t' -> n = m /\ t = t'.
Proof.
  intros H. revert m t'. induction H as [r H|r H|n r t u H Hne H1 IH]; intros m t' H'.
  - inversion H'; subst; auto; congruence.
  - inversion H'; subst; auto; congruence.
  - inversion H' as [r0 E|r0 E|m0 r0 t0 u0 E Hne0 H0]; subst; try congruence.
    assert (t0 = t) by congruence. subst. destruct (IH _ _ H0). auto.
Qed.

Lemma find_resolves ops path pristine : by_type_only ops ->
  forall n req t info, resolves_n ops path n req t ->
  (forall e o, In e info -> o_orig e = Some o -> exists m t', n < m /\ resolves_n ops path m o t') ->
  forall F, n < F -> find F pristine (frun ops) path info req = FType t.
Proof.
  intros HB. induction n as [|n IH]; intros req t info HR HIn F HF;
    destruct F as [|F]; try lia; cbn [FactoryModel.find].
  - assert (EL : loop_index 0 info req = None).
    { apply loop_index_none. intros X. unfold origs in X. apply in_flat_map in X as (e & He & X).
      destruct (o_orig e) as [o|] eqn:Eo; [|destruct X]. destruct X as [->|[]].
      destruct (HIn e req He Eo) as (m & t' & Hm & Hr).
      destruct (resolves_n_det _ _ _ _ _ _ _ HR Hr). lia. }
    rewrite EL. pose proof (choice_ok ops path req HB) as C.
    inversion HR as [r H|r H|]; subst; destruct (matches (frun ops) path t) as [|e l];
      try congruence; auto.
    assert (o_type e = t) by congruence. rewrite H0, Nat.eqb_refl. reflexivity.
  - assert (EL : loop_index 0 info req = None).
    { apply loop_index_none. intros X. unfold origs in X. apply in_flat_map in X as (e & He & X).
      destruct (o_orig e) as [o|] eqn:Eo; [|destruct X]. destruct X as [->|[]].
      destruct (HIn e req He Eo) as (m & t' & Hm & Hr).
      destruct (resolves_n_det _ _ _ _ _ _ _ HR Hr). lia. }
    rewrite EL. pose proof (choice_ok ops path req HB) as C.
    inversion HR as [| |? ? t1 ? H Hne H1]; subst.
    destruct (matches (frun ops) path req) as [|e l] eqn:EM; [congruence|].
    assert (o_type e = t1) by congruence. subst t1.
    destruct (Nat.eqb_spec (o_type e) req); [congruence|].
    apply IH; [exact H1| |lia].
    intros e' o' He' Ho'. apply in_app_or in He' as [He'|[<-|[]]].
    + destruct (HIn e' o' He' Ho') as (m & t' & Hm & Hr). exists m, t'. split; [lia|auto].
    + assert (He : In e (matches (frun ops) path req)) by (rewrite EM; now left).
      assert (o_orig e = Some req).
      { apply in_matches in He as [M [HT|HN]].
        - destruct (typed_ovr ops HB e HT) as (o & A & B).
          rewrite (match_orig_typed o e req A B) in M. apply Nat.eqb_eq in M. congruence.
        - apply (fi_inst _ (facinv_run ops) req e HN). }
      assert (o' = req) by congruence. subst. exists (S n), t. split; [lia|exact HR].
Qed.
End Hist.
End Proofs.
