(** C116-C118: the component hierarchy. *)
From Coq Require Import ZArith List Bool Arith Ascii Lia.
From Verif Require Import Prelude SvModel SvSpec SvProofs TreeModel TreeSpec TreeProofs.
Import ListNotations.
Local Open Scope nat_scope.

Section Props.
Context (dec : nat -> str).
Notation step := (step dec).
Notation build := (build dec).
Notation run := (run_machine step).

(** ** C116: names, children *)
Lemma asked (t : tree) (c : nat) : exists_in t c -> exists x, nth_error (comps t) c = Some x.
Proof. intros H. destruct (nth_error (comps t) c) eqn:E; [eauto|]. apply nth_error_None in E. unfold exists_in in H. lia. Qed.

(** Every component is reached from uvm_top by the names of one path, and its full name is
    this path joined with dots. *)
Theorem C116_path : forall n ls c, let t := fst (build n ls) in exists_in t c -> c <> 0 ->
  exists ns, ns <> [] /\ Forall (fun m => m <> []) ns /\ path t 0 ns c /\ (forall ns', path t 0 ns' c -> ns' = ns) /\
    step t (LFullName c) = (t, [OStr (join ns)]).
Proof.
  intros n ls c t HC N. pose proof (wf_build dec n ls : wf t) as W. destruct (path_exists t c W HC) as [ns P].
  assert (NE : ns <> []) by (intros ->; inversion P; congruence). exists ns. split; [exact NE|].
  split; [now apply (path_nonempty_names t 0 ns c)|]. split; [exact P|].
  split; [intros ns' P'; now apply (path_names t 0 ns' c W)|]. destruct (full_path t W ns c P NE) as (x & X & F).
  cbn [TreeModel.step]. unfold about. now rewrite X, F.
Qed.
(** Different components have different full names, provided no name has a dot. *)
Theorem C116_unique : forall n ls c d, (forall i, dotfree (dec i)) -> Forall no_dots ls ->
  let t := fst (build n ls) in exists_in t c -> exists_in t d -> c <> 0 -> d <> 0 ->
  snd (step t (LFullName c)) = snd (step t (LFullName d)) -> c = d.
Proof.
  intros n ls c d HD ND t HC HE NC NE E. pose proof (wf_build dec n ls : wf t) as W. pose proof (clean_build dec n ls HD ND : clean t) as CL.
  destruct (C116_path n ls c HC NC) as (ns & N1 & _ & P1 & _ & S1). destruct (C116_path n ls d HE NE) as (ms & N2 & _ & P2 & _ & S2).
  fold t in P1, S1, P2, S2. rewrite S1, S2 in E. cbn [snd] in E. assert (EJ : join ns = join ms) by congruence.
  assert (DF : forall l x, path t 0 l x -> Forall dotfree l).
  { intros l x P. apply clean_path in P; auto. eapply Forall_impl; [|exact P]. intros a [_ H]; exact H. }
  apply join_inj in EJ; eauto. subst ms. now apply (path_det t 0 ns c W P1).
Qed.
(** get_depth() is the number of names on the path. *)
Theorem C116_depth : forall n ls c ns, (forall i, dotfree (dec i)) -> Forall no_dots ls ->
  let t := fst (build n ls) in path t 0 ns c -> c <> 0 -> step t (LDepth c) = (t, [ONum (length ns)]).
Proof.
  intros n ls c ns HD ND t P N. pose proof (wf_build dec n ls : wf t) as W. pose proof (clean_build dec n ls HD ND : clean t) as CL.
  assert (NE : ns <> []) by (intros ->; inversion P; congruence). destruct (full_path t W ns c P NE) as (x & X & F).
  cbn [TreeModel.step]. unfold about. rewrite X. unfold get_depth. pose proof (wf_full t c x W X N) as NF. unfold get_full_name in F.
  destruct (full x) as [|y s]; [congruence|]. rewrite depth_dots, F. change (1 + dots (join ns)) with (S (dots (join ns))).
  rewrite dots_join; [reflexivity| |exact NE]. apply clean_path in P; auto. eapply Forall_impl; [|exact P]. intros a [_ H]; exact H.
Qed.
(** The root has depth 0. *)
Theorem C116_root_depth : forall n ls, (forall s, ~ In (LSetName 0 s) ls) -> let t := fst (build n ls) in step t (LDepth 0) = (t, [ONum 0]).
Proof.
  intros n ls NS t. enough (T : exists x, nth_error (comps t) 0 = Some x /\ full x = []).
  { destruct T as (x & X & F). cbn [TreeModel.step]. unfold about, get_depth. now rewrite X, F. }
  unfold t, build. assert (G : forall ls t, (forall s, ~ In (LSetName 0 s) ls) -> wf t -> (exists x, nth_error (comps t) 0 = Some x /\ full x = []) ->
    exists x, nth_error (comps (fst (run_machine step t ls))) 0 = Some x /\ full x = []).
  2: { apply (G ls (tree0 n) NS (wf0 n)). eexists. split; reflexivity. }
  clear. induction ls as [|l ls IH]; intros t NS W T; [exact T|]. cbn [run_machine].
  assert (T1 : exists x, nth_error (comps (fst (step t l))) 0 = Some x /\ full x = []).
  { destruct T as (x & X & F). assert (NL : forall s, l <> LSetName 0 s) by (intros s ->; apply (NS s); now left).
    clear NS IH. revert NL. destruct (step_change dec t l) as [l t' SM| |l t' E EB|name p k|c name]; intros NL.
    - destruct (same_nth t t' 0 x) as (x' & X' & E); [now apply same_sym|exact X|]. injection E as E1 E2 E3 E4. exists x'. split; [exact X'|congruence].
    - eauto.
    - exists x. rewrite E. auto.
    - destruct (new_spec dec t name p k W) as [(px & P & _ & _ & _ & _ & _ & L & N1 & N2 & N3)|(E & _)].
      + destruct (Nat.eq_dec 0 p) as [<-|NP].
        * eexists. split; [exact N1|]. cbn. congruence.
        * exists x. rewrite N3; auto. assert (0 < length (comps t)) by (apply nth_error_Some; congruence). lia.
      + exists x. rewrite E. auto.
    - destruct (set_name_spec t c name W) as [(-> & _)|(y & -> & _)]; [eauto|]. now destruct (NL name). }
  pose proof (wf_step dec t l W) as W'. destruct (step t l) as [t1 o1]. cbn [fst] in *. specialize (IH t1 (fun s I => NS s (or_intror I)) W' T1).
  now destruct (run_machine step t1 ls).
Qed.
Print Assumptions C116_root_depth.
(** Nothing changes the name or the parent of a component, or takes a child away. *)
Theorem C116_stable : forall n ls ls', let t := fst (build n ls) in let t' := fst (run t ls') in
  (forall c, exists_in t c -> exists_in t' c /\ snd (step t' (LParent c)) = snd (step t (LParent c)) /\
     (c <> 0 -> snd (step t' (LFullName c)) = snd (step t (LFullName c)) /\ snd (step t' (LDepth c)) = snd (step t (LDepth c)))) /\
  (forall p m c, child t p m c -> child t' p m c).
Proof.
  intros n ls ls' t t'. pose proof (wf_build dec n ls : wf t) as W. destruct (kept_run dec ls' t W) as [L K]. fold t' in L, K. split.
  - intros c HC. split; [unfold exists_in in *; lia|]. destruct (asked t c HC) as [x X]. destruct (K c x X) as (y & Y & P & NF & _).
    cbn [TreeModel.step]. unfold about. rewrite X, Y. cbn [snd]. rewrite P. split; [reflexivity|]. intros N. destruct (NF N) as [E1 E2].
    unfold get_full_name, get_depth. now rewrite E1, E2.
  - intros p m c (x & X & HI). destruct (K p x X) as (y & Y & _ & _ & IN). exists y. auto.
Qed.
(** set_name() is refused for all components but uvm_top. *)
Theorem C116_set_name : forall n ls c s, let t := fst (build n ls) in exists_in t c -> c <> 0 ->
  step t (LSetName c s) = (t, [OError]).
Proof.
  intros n ls c s t HC N. pose proof (wf_build dec n ls : wf t) as W. destruct (asked t c HC) as [x X]. pose proof (wf_full t c x W X N) as NF.
  cbn [TreeModel.step]. unfold set_name. rewrite X. destruct (full x); [congruence|reflexivity].
Qed.
(** A constructor is refused after the build phase or when the parent has a child of that
    name, and then adds nothing; otherwise it adds one child. *)
Definition given (t : tree) (name : str) (k : nat) : str :=
  match name with [] => ["C"; "O"; "M"; "P"; "_"]%char ++ dec (S (insts t) + k) | _ => name end.
Theorem C116_new : forall n ls name p k, let t := fst (build n ls) in exists_in t p ->
  let t' := fst (step t (LNew name p k)) in let nm := given t name k in
  (snd (step t (LNew name p k)) = [OFatal] <-> built t = true \/ exists c, child t p nm c) /\
  (snd (step t (LNew name p k)) = [OFatal] -> comps t' = comps t) /\
  (snd (step t (LNew name p k)) <> [OFatal] -> exists c, snd (step t (LNew name p k)) = [ONew c] /\
     ~ exists_in t c /\ exists_in t' c /\
     (forall q m d, child t' q m d <-> child t q m d \/ (q = p /\ m = nm /\ d = c))).
Proof.
  intros n ls name p k t HP t' nm. pose proof (wf_build dec n ls : wf t) as W. destruct (asked t p HP) as [px X].
  pose proof (new_spec dec t name p k W) as NS. fold (given t name k) in NS. unfold real_name in NS. fold (given t name k) in NS. fold nm in NS. cbv zeta in NS.
  cbn [TreeModel.step] in *. fold t' in NS.
  destruct NS as [(qx & Q & B & NI & O & _ & W' & L & N1 & N2 & N3)|(E & B & W' & D)].
  - assert (qx = px) as -> by congruence. rewrite O. split; [|split; [discriminate|]].
    + split; [discriminate|]. intros [H|(c & x & H & HI)]; [congruence|]. assert (x = px) as -> by congruence. apply (in_map fst) in HI. now destruct NI.
    + intros _. exists (length (comps t)). split; [reflexivity|]. unfold exists_in. split; [lia|]. split; [lia|]. intros q m d. unfold child.
      destruct (Nat.eq_dec q p) as [->|NQ].
      * rewrite N1, X. split.
        -- intros (x & H & HI). injection H as <-. cbn [kids] in HI. apply in_app_iff in HI. destruct HI as [HI|[HI|[]]]; [left; eauto|]. injection HI as <- <-. auto.
        -- intros [(x & H & HI)|(_ & -> & ->)]; [injection H as <-|]; (eexists; split; [reflexivity|]; cbn [kids]; apply in_app_iff); [now left|right; now left].
      * destruct (Nat.eq_dec q (length (comps t))) as [->|NL].
        -- rewrite N2. split.
           ++ intros (x & H & HI). injection H as <-. destruct HI.
           ++ intros [(x & H & HI)|(H & _)]; [|congruence]. assert (length (comps t) < length (comps t)) by (apply nth_error_Some; congruence). lia.
        -- rewrite N3 by assumption. split; [auto|]. intros [H|(H & _)]; [exact H|congruence].
  - destruct D as [(_ & H & _)|(O & D)]; [congruence|]. rewrite O. split; [|split; [intros _; exact E|congruence]]. split; [|reflexivity].
    intros _. destruct D as [D|(qx & Q & HI)]; [auto|]. right. apply in_map_iff in HI. destruct HI as ([m c] & <- & HI). exists c, qx. auto.
Qed.
(** The number in the name of a component made without one: one more than the objects made before
    it, with those its base classes make, whether or not their constructors were refused. *)
Fixpoint made (ls : list lab) : nat :=
  match ls with
  | [] => 0
  | LNew _ _ k :: ls => S k + made ls
  | LObject :: ls => S (made ls)
  | _ :: ls => made ls
  end.
Theorem C116_number : forall n ls name k, given (fst (build n ls)) name k =
  match name with [] => ["C"; "O"; "M"; "P"; "_"]%char ++ dec (n + made ls + S k) | _ => name end.
Proof.
  intros n ls name k. unfold given. destruct name; [|reflexivity]. do 2 f_equal.
  assert (G : forall ls t, insts (fst (run_machine step t ls)) = insts t + made ls).
  { clear. induction ls as [|l ls IH]; intros t; [cbn; lia|]. cbn [run_machine].
    assert (S1 : insts (fst (step t l)) = insts t + made [l]).
    { destruct l; cbn [TreeModel.step made]; unfold about;
        try (destruct (nth_error (comps t) c); cbn [fst]; lia); try (cbn [fst insts]; lia).
      - unfold TreeModel.new. destruct t as [cs bt m]. cbn [insts]. cbv zeta. destruct bt; [cbn [fst insts]; lia|].
        destruct (nth_error cs p) as [pc|]; [|cbn [fst insts]; lia]. destruct (get_kid _ _); cbn [fst insts]; lia.
      - unfold set_name. destruct (nth_error (comps t) c) as [x|]; [destruct (full x)|]; cbn [fst insts]; lia.
      - cbn [first_child fst]. rewrite (proj2 (proj2 (setptr_same t c 0))). lia.
      - unfold next_child. destruct (nth_error (comps t) c) as [x|]; cbn [fst]; [|lia]. cbv zeta.
        rewrite (proj2 (proj2 (setptr_same t c (ptr x + 1)))). lia.
      - destruct (lookup _ t c name) as [[r o]|]; cbn [fst]; lia.
      - unfold find_all. destruct (recurse _ _ _ _) eqn:E; cbn [fst]; try lia. apply recurse_same in E as (_ & _ & ->). lia.
      - unfold find_all. destruct (recurse _ _ _ _) as [t1 [|d l1]| | |] eqn:E; cbn [fst]; try lia; apply recurse_same in E as (_ & _ & ->); lia. }
    specialize (IH (fst (step t l))). destruct (step t l) as [t' o]. cbn [fst] in *. destruct (run_machine _ t' ls). cbn [fst] in *.
    rewrite IH, S1. destruct l; cbn [made]; lia. }
  specialize (G ls (tree0 n)). unfold TreeModel.build. rewrite G. cbn [tree0 insts]. lia.
Qed.
Print Assumptions C116_number.
(** Questions about children and parents *)
Theorem C116_children : forall n ls c, let t := fst (build n ls) in exists_in t c ->
  (forall m, exists r, step t (LGetChild c m) = (t, [OComp r]) /\ (forall d, r = Some d <-> child t c m d) /\
     step t (LHasChild c m) = (t, [OBool (if r then true else false)])) /\
  (exists l, step t (LChildren c) = (t, [OComps l]) /\ step t (LNumChildren c) = (t, [ONum (length l)]) /\
     NoDup l /\ (forall d, In d l <-> exists m, child t c m d) /\ (forall d, In d l -> exists_in t d /\ step t (LParent d) = (t, [OComp (Some c)]))).
Proof.
  intros n ls c t HC. pose proof (wf_build dec n ls : wf t) as W. destruct (asked t c HC) as [x X]. cbn [TreeModel.step]. unfold about. rewrite X. split.
  - intros m. exists (get_kid (kids x) m). split; [reflexivity|]. split; [|destruct (get_kid (kids x) m); reflexivity]. intros d. split.
    + intros H. exists x. split; [exact X|now apply get_kid_in].
    + intros (y & Y & HI). assert (y = x) as -> by congruence. apply get_kid_complete; [eapply w_names; eauto|exact HI].
  - exists (map snd (kids x)). split; [reflexivity|]. split; [now rewrite map_length|]. split.
    + pose proof (w_sorted t W c x X) as SS. clear - SS. induction SS as [|a l SS IHs FA]; constructor; auto. intros HI. rewrite Forall_forall in FA. apply FA in HI. lia.
    + split.
      * intros d. split; [intros H; apply in_map_iff in H; destruct H as ([m e] & <- & HI); exists m, x; auto|].
        intros (m & y & Y & HI). assert (y = x) as -> by congruence. now apply (in_map snd) in HI.
      * intros d H. apply in_map_iff in H. destruct H as ([m e] & <- & HI). destruct (w_down t W c x m e X HI) as (_ & y & Y & _ & P). cbn [snd].
        split; [unfold exists_in; apply nth_error_Some; congruence|]. now rewrite Y, P.
Qed.
(** get_first_child() and then get_next_child() go through the children in that order. *)
Theorem C116_iteration : forall n ls c k, let t := fst (build n ls) in exists_in t c ->
  exists l, step t (LChildren c) = (t, [OComps l]) /\
    snd (run t (LFirst c :: repeat (LNext c) k)) = map (fun i => OComp (nth_error l i)) (seq 0 (S k)).
Proof.
  intros n ls c k t HC. destruct (asked t c HC) as [x X]. exists (map snd (kids x)). split; [cbn [TreeModel.step]; unfold about; now rewrite X|].
  cbn [run_machine TreeModel.step]. unfold first_child. rewrite X. cbn [snd seq map].
  destruct (run_machine step (setptr t c 0) (repeat (LNext c) k)) as [t2 o2] eqn:ER. cbn [snd app].
  f_equal; [now destruct (kids x) as [|[m d] l]|].
  assert (G : forall k i t1 y, nth_error (comps t1) c = Some y -> kids y = kids x -> ptr y = Z.of_nat i ->
     snd (run_machine step t1 (repeat (LNext c) k)) = map (fun i => OComp (nth_error (map snd (kids x)) i)) (seq (S i) k)).
  { clear. induction k as [|k IH]; intros i t1 y Y EK EP; [reflexivity|]. cbn [repeat run_machine TreeModel.step seq map]. unfold next_child. rewrite Y.
    rewrite EP, EK.
    destruct (run_machine step (setptr t1 c (Z.of_nat i + 1)) (repeat (LNext c) k)) as [t2 o2] eqn:ER. cbn [snd app]. f_equal.
    - f_equal. rewrite nth_error_map. destruct (Z.ltb_spec (Z.of_nat i + 1) (Z.of_nat (length (kids x)))).
      + destruct (Z.ltb_spec (Z.of_nat i + 1) 0); [lia|]. now replace (Z.to_nat (Z.of_nat i + 1)) with (S i) by lia.
      + destruct (nth_error (kids x) (S i)) eqn:EN; [|reflexivity]. assert (S i < length (kids x)) by (apply nth_error_Some; congruence). lia.
    - change o2 with (snd (t2, o2)). rewrite <- ER. eapply (IH (S i)).
      + rewrite (setptr_nth _ _ _ _ _ Y), Nat.eqb_refl. reflexivity.
      + exact EK.
      + cbn [ptr]. lia. }
  change o2 with (snd (t2, o2)). rewrite <- ER. eapply (G k 0).
  - rewrite (setptr_nth _ _ _ _ _ X), Nat.eqb_refl. reflexivity.
  - reflexivity.
  - reflexivity.
Qed.

(** ** C117: lookup() *)
(** A relative name is followed child by child. *)
Theorem C117_relative : forall n ls c ns, let t := fst (build n ls) in exists_in t c -> ns <> [] -> Forall good_name ns ->
  (exists d, path t c ns d /\ step t (LLookup c (join ns)) = (t, [OComp (Some d)])) \/
  ((forall d, ~ path t c ns d) /\ step t (LLookup c (join ns)) = (t, [OWarn; OComp None])).
Proof.
  intros n ls c ns t HC N F. pose proof (wf_build dec n ls : wf t) as W. cbn [TreeModel.step]. pose proof (join_length ns F).
  destruct (lookup_follow t W ns c (S (length (join ns))) HC F N ltac:(lia)) as (r & -> & [(d & P & ->)|(P & ->)]); [left; eauto|right; auto].
Qed.
(** A name with a dot in front is followed from uvm_top, whatever component is asked. *)
Theorem C117_absolute : forall n ls c ns, let t := fst (build n ls) in exists_in t c -> ns <> [] -> Forall good_name ns ->
  (exists d, path t 0 ns d /\ step t (LLookup c (dot :: join ns)) = (t, [OComp (Some d)])) \/
  ((forall d, ~ path t 0 ns d) /\ step t (LLookup c (dot :: join ns)) = (t, [OWarn; OComp None])).
Proof.
  intros n ls c ns t HC N F. pose proof (wf_build dec n ls : wf t) as W. cbn [TreeModel.step]. pose proof (join_length ns F). cbn [length].
  destruct (lookup_absolute t ns c (S (S (length (join ns)))) W HC F N ltac:(lia)) as (r & -> & [(d & P & ->)|(P & ->)]); [left; eauto|right; auto].
Qed.
(** The full name of a component finds it again. *)
Theorem C117_round_trip : forall n ls c d s, (forall i, dotfree (dec i)) -> Forall no_dots ls ->
  let t := fst (build n ls) in exists_in t c -> exists_in t d -> d <> 0 -> snd (step t (LFullName d)) = [OStr s] ->
  step t (LLookup c (dot :: s)) = (t, [OComp (Some d)]) /\ step t (LLookup 0 s) = (t, [OComp (Some d)]).
Proof.
  intros n ls c d s HD ND t HC HE N E. pose proof (wf_build dec n ls : wf t) as W. pose proof (clean_build dec n ls HD ND : clean t) as CL.
  destruct (C116_path n ls d HE N) as (ns & NE & _ & P & _ & SF). fold t in P, SF. rewrite SF in E. cbn [snd] in E. injection E as <-.
  pose proof (clean_path t 0 ns d W CL P) as F. assert (H0 : exists_in t 0) by (unfold exists_in in *; lia). split.
  - destruct (C117_absolute n ls c ns HC NE F) as [(e & P' & H)|(NP & _)]; [|now destruct (NP d)]. fold t in P', H. now rewrite (path_det t 0 ns d W P e P').
  - destruct (C117_relative n ls 0 ns H0 NE F) as [(e & P' & H)|(NP & _)]; [|now destruct (NP d)]. fold t in P', H. now rewrite (path_det t 0 ns d W P e P').
Qed.
(** On any string: a descendant of the component or of uvm_top, or nothing and a warning. *)
Theorem C117_any : forall n ls c s, let t := fst (build n ls) in exists_in t c ->
  (exists d ns, step t (LLookup c s) = (t, [OComp (Some d)]) /\ ns <> [] /\ (path t c ns d \/ path t 0 ns d)) \/
  step t (LLookup c s) = (t, [OWarn; OComp None]).
Proof.
  intros n ls c s t HC. pose proof (wf_build dec n ls : wf t) as W. cbn [TreeModel.step].
  destruct (lookup_any t W (S (length s)) c s ltac:(lia) HC) as [(d & ns & -> & H)| ->]; [left; exists d, ns; auto|right; reflexivity].
Qed.

(** ** C118: find(), find_all() *)
(** the pattern is one C20 decides *)
Definition simple (pat : str) : Prop := Forall plain pat /\ ~ slash_delimited pat.
Lemma simple_all pat : simple pat -> matches_all pat.
Proof. intros [H1 H2] s. exists (search (glob_items pat) s). now apply is_match_ok. Qed.
(** a part of the full name of [c] fits the pattern, and its name is not empty (only uvm_top's is) *)
Definition wanted (t : tree) (pat : str) (c : nat) : Prop :=
  exists s m, snd (step t (LFullName c)) = [OStr s] /\ s <> [] /\ part_of m s /\ glob pat m.
Lemma hit_wanted t pat c : wf t -> top_ok t -> simple pat -> exists_in t c -> hit t pat c = true <-> wanted t pat c.
Proof.
  intros W T [H1 H2] HC. destruct (asked t c HC) as [x X]. pose proof (named t c x W T X) as NM. unfold hit, wanted. cbn [TreeModel.step]. unfold about. rewrite X. cbn [snd].
  rewrite is_match_ok by auto. rewrite andb_true_iff, search_glob, negb_true_iff. destruct (str_eqb_spec (leaf x) []) as [E|N].
  - split; [intros [_ H]; discriminate|]. intros (s & m & E1 & N & _). apply NM in E. congruence.
  - split.
    + intros [(m & P & G) _]. exists (get_full_name x), m. split; [reflexivity|]. split; [tauto|auto].
    + intros (s & m & E1 & _ & P & G). injection E1 as ->. eauto.
Qed.
Lemma found n ls pat c : simple pat -> let t := fst (build n ls) in exists_in t c ->
  exists po t', postorder t c po /\ find_all t pat c = FDone t' (filter (hit t pat) po) /\ frame po t t'.
Proof.
  intros SP t HC. pose proof (wf_build dec n ls : wf t) as W. destruct (post_exists t W c HC) as (po & P & _).
  pose proof (post_length t c po W P) as L.
  destruct (walk dec t pat (simple_all pat SP) W c po P t (fuel_for t) (same_refl t) ltac:(unfold fuel_for; lia)) as (t' & R & F). exists po, t'. auto.
Qed.
(** find_all() gives the components at and below the given one that the pattern fits, each
    once, a component after everything below it, children in their order. *)
Theorem C118_find_all : forall n ls pat c, simple pat -> let t := fst (build n ls) in exists_in t c ->
  exists l po f, snd (step t (LFindAll pat c)) = [OComps l] /\ NoDup l /\
    (forall d, In d l <-> below t c d /\ wanted t pat d) /\
    postorder t c po /\ l = filter f po.
Proof.
  intros n ls pat c SP t HC. pose proof (wf_build dec n ls : wf t) as W. pose proof (top_ok_build dec n ls : top_ok t) as T.
  destruct (found n ls pat c SP HC) as (po & t' & P & E & F). fold t in P, E, F. exists (filter (hit t pat) po), po, (hit t pat).
  cbn [TreeModel.step]. rewrite E. split; [reflexivity|]. split; [apply NoDup_filter; now apply (post_nodup t W c)|]. split; [|auto].
  intros d. rewrite filter_In, (post_in t W c po P d). split; intros [B H]; (split; [exact B|]).
  - apply hit_wanted in H; auto. destruct B as [ns B]. eapply path_in; eauto.
  - apply hit_wanted; auto. destruct B as [ns B]. eapply path_in; eauto.
Qed.
(** Of two components found, the lower one comes first. *)
Theorem C118_order : forall n ls pat c d e, simple pat -> let t := fst (build n ls) in exists_in t c ->
  below t c d -> below t d e -> e <> d -> wanted t pat d -> wanted t pat e ->
  exists l1 l2 l3, snd (step t (LFindAll pat c)) = [OComps (l1 ++ e :: l2 ++ d :: l3)].
Proof.
  intros n ls pat c d e SP t HC B1 B2 N W1 W2. pose proof (wf_build dec n ls : wf t) as W. pose proof (top_ok_build dec n ls : top_ok t) as T.
  destruct (found n ls pat c SP HC) as (po & t' & P & E & F). fold t in P, E, F. cbn [TreeModel.step]. rewrite E. cbn [snd].
  destruct (post_before t c po d e W P B1 B2 N) as (l1 & l2 & l3 & ->). pose proof B1 as [ns1 X1]. pose proof B2 as [ns2 X2].
  assert (D : exists_in t d) by (eapply path_in; eauto). assert (D' : exists_in t e) by (eapply path_in; eauto).
  apply hit_wanted in W1; auto. apply hit_wanted in W2; auto. rewrite filter_app. cbn [filter]. rewrite W2, filter_app. cbn [filter]. rewrite W1. eauto.
Qed.
(** Searching changes no name, parent or children, and no iteration outside of the part searched. *)
Theorem C118_frame : forall n ls pat c, simple pat -> let t := fst (build n ls) in exists_in t c -> let t' := fst (step t (LFindAll pat c)) in
  (forall d, snd (step t' (LFullName d)) = snd (step t (LFullName d)) /\ snd (step t' (LParent d)) = snd (step t (LParent d)) /\
     snd (step t' (LChildren d)) = snd (step t (LChildren d))) /\
  (forall p m d, child t' p m d <-> child t p m d) /\
  (forall d, ~ below t c d -> snd (step t' (LNext d)) = snd (step t (LNext d))).
Proof.
  intros n ls pat c SP t HC t'. pose proof (wf_build dec n ls : wf t) as W.
  destruct (found n ls pat c SP HC) as (po & t1 & P & E & [SM F]). fold t in P, E, F, SM. unfold t'. cbn [TreeModel.step]. rewrite E. cbn [fst].
  assert (NN : forall d, nth_error (comps t) d = None -> nth_error (comps t1) d = None).
  { intros d H. apply nth_error_None. apply nth_error_None in H. rewrite (same_length _ _ SM). exact H. }
  split; [|split].
  - intros d. unfold about. destruct (nth_error (comps t) d) as [x|] eqn:X; [|rewrite NN by exact X; auto].
    destruct (same_nth t t1 d x (same_sym _ _ SM) X) as (x' & X' & EQ). injection EQ as E1 E2 E3 E4. rewrite X'. cbn [snd]. unfold get_full_name. now rewrite E1, E2, E3, E4.
  - intros p m d. split; intros (x & X & HI).
    + destruct (same_nth t1 t p x SM X) as (x' & X' & EQ). injection EQ as E1 E2 E3 E4. exists x'. rewrite E4. auto.
    + destruct (same_nth t t1 p x (same_sym _ _ SM) X) as (x' & X' & EQ). injection EQ as E1 E2 E3 E4. exists x'. rewrite E4. auto.
  - intros d NB. assert (NI : ~ In d po) by (now rewrite (post_in t W c po P d)). unfold next_child. rewrite (F d NI). now destruct (nth_error (comps t) d).
Qed.
(** find() gives the first that find_all() gives and warns if there are more; when there is
    none it raises. *)
Theorem C118_find : forall n ls pat, simple pat -> let t := fst (build n ls) in
  exists l, snd (step t (LFindAll pat 0)) = [OComps l] /\
    snd (step t (LFind pat)) = match l with [] => [ORaise] | [d] => [OComp (Some d)] | d :: _ => [OWarn; OComp (Some d)] end.
Proof.
  intros n ls pat SP t. pose proof (wf_build dec n ls : wf t) as W. destruct (w_top t W) as (x & X & _).
  assert (HC : exists_in t 0) by (apply nth_error_Some; congruence).
  destruct (found n ls pat 0 SP HC) as (po & t1 & P & E & F). fold t in P, E, F. cbn [TreeModel.step]. rewrite E. cbn [snd]. eexists. split; [reflexivity|].
  destruct (filter (hit t pat) po) as [|d [|e l]]; reflexivity.
Qed.
Lemma glob_self s : glob s s.
Proof.
  induction s as [|c s IH]; [constructor|]. destruct (Ascii.eqb_spec c "*"%char) as [->|N1]; [apply G_star_eat, G_star_skip, IH|].
  destruct (Ascii.eqb_spec c "?"%char) as [->|N2]; [now apply G_quest|now apply G_char].
Qed.
(** So the full name of a component that has children finds some other component. *)
Theorem C118_find_parent : forall n ls c m d s, let t := fst (build n ls) in c <> 0 -> child t c m d ->
  snd (step t (LFullName c)) = [OStr s] -> simple s ->
  exists e, snd (step t (LFind s)) = [OWarn; OComp (Some e)] /\ e <> c.
Proof.
  intros n ls c m d s t N CH FN SP. pose proof (wf_build dec n ls : wf t) as W. pose proof (top_ok_build dec n ls : top_ok t) as T.
  pose proof (child_lt t c m d W CH) as L. assert (HC : exists_in t c) by (unfold exists_in; lia). assert (HD : exists_in t d) by (unfold exists_in; lia).
  assert (H0 : exists_in t 0) by (unfold exists_in; lia).
  destruct (C116_path n ls c HC N) as (ns & NE & _ & P & _ & FC). fold t in P, FC. rewrite FC in FN. cbn [snd] in FN. injection FN as <-.
  assert (PD : path t 0 (ns ++ [m]) d) by (eapply path_app; [exact P|now apply path_one]).
  destruct (full_path t W (ns ++ [m]) d PD) as (x & X & FX); [now destruct ns|]. rewrite join_snoc in FX by exact NE.
  assert (JN : join ns <> []).
  { destruct (full_path t W ns c P NE) as (y & Y & FY). rewrite <- FY. intros Z. apply (named t c y W T Y) in Z. destruct (w_up t W c y Y N) as (L1 & _). contradiction. }
  assert (W1 : wanted t (join ns) c).
  { exists (join ns), (join ns). split; [now rewrite FC|]. split; [exact JN|]. split; [exists [], []; now rewrite app_nil_r|apply glob_self]. }
  assert (W2 : wanted t (join ns) d).
  { exists (join ns ++ dot :: m), (join ns). split; [cbn [TreeModel.step]; unfold about; now rewrite X, FX|]. split; [now destruct (join ns)|].
    split; [exists [], (dot :: m); reflexivity|apply glob_self]. }
  assert (BC : below t 0 c) by (eexists; exact P). assert (BD : below t c d) by (exists [m]; now apply path_one).
  destruct (C118_order n ls (join ns) 0 c d SP H0 BC BD ltac:(lia) W1 W2) as (l1 & l2 & l3 & O). fold t in O.
  destruct (C118_find n ls (join ns) SP) as (l & O' & R). fold t in O', R. rewrite O in O'. injection O' as <-. rewrite R.
  destruct (C118_find_all n ls (join ns) 0 SP H0) as (l' & _ & _ & O2 & ND & _). fold t in O2. rewrite O in O2. injection O2 as <-.
  destruct l1 as [|e l1]; cbn [app] in *.
  - exists d. split; [destruct l2; reflexivity|lia].
  - exists e. split; [destruct l1; reflexivity|]. intros ->. inversion ND as [|? ? NI _]. apply NI. rewrite in_app_iff. right. right. apply in_app_iff. right. now left.
Qed.
End Props.
Print Assumptions C116_path.
Print Assumptions C116_unique.
Print Assumptions C116_depth.
Print Assumptions C116_stable.
Print Assumptions C116_set_name.
Print Assumptions C116_new.
Print Assumptions C116_children.
Print Assumptions C116_iteration.
Print Assumptions C117_relative.
Print Assumptions C117_absolute.
Print Assumptions C117_round_trip.
Print Assumptions C117_any.
Print Assumptions C118_find_all.
Print Assumptions C118_order.
Print Assumptions C118_frame.
Print Assumptions C118_find.
Print Assumptions C118_find_parent.

(** ** Examples and limits *)
Section Examples.
Open Scope char_scope.
Definition num (i : nat) : str := [ascii_of_nat (48 + i mod 10)].
Definition env := ["e"; "n"; "v"]. Definition agt := ["a"; "g"; "t"]. Definition drv := ["d"; "r"; "v"].
(** env (1) with agt (2, has drv 3), scb (4); a second top component without a name (5) *)
Definition tb : list lab := [LNew env 0 0; LNew agt 1 0; LNew drv 2 0; LNew ["s"; "c"; "b"] 1 0; LNew [] 0 0].
Definition tb_tree := fst (build num 0 tb).
Example num_free : forall i, dotfree (num i).
Proof.
  intros i [H|[]]. revert H. generalize (Nat.mod_upper_bound i 10 ltac:(lia)). generalize (i mod 10). intros k K.
  do 10 (destruct k as [|k]; [discriminate|]). lia.
Qed.
Example C116_example : Forall no_dots tb /\
  snd (step num tb_tree (LFullName 3)) = [OStr (join [env; agt; drv])] /\ snd (step num tb_tree (LDepth 3)) = [ONum 3] /\
  snd (step num tb_tree (LFullName 5)) = [OStr ["C"; "O"; "M"; "P"; "_"; "5"]] /\
  snd (step num tb_tree (LChildren 1)) = [OComps [2; 4]] /\ snd (step num tb_tree (LGetChild 1 agt)) = [OComp (Some 2)] /\
  snd (step num tb_tree (LNew agt 1 0)) = [OFatal] /\ snd (run_machine (step num) tb_tree [LBuilt; LNew drv 1 0]) = [OFatal] /\
  snd (run_machine (step num) tb_tree [LFirst 1; LNext 1; LNext 1]) = [OComp (Some 2); OComp (Some 4); OComp None].
Proof.
  split; [|repeat split; reflexivity]. repeat (apply Forall_cons; [unfold no_dots, dotfree; cbn; intuition discriminate|]); apply Forall_nil.
Qed.
(** A name with a dot: two components with one full name. *)
Definition dotted : list lab := [LNew env 0 0; LNew agt 1 0; LNew (env ++ dot :: agt) 0 0].
Theorem C116_dotted_limit :
  snd (step num (fst (build num 0 dotted)) (LFullName 2)) = snd (step num (fst (build num 0 dotted)) (LFullName 3)) /\
  snd (step num (fst (build num 0 dotted)) (LDepth 3)) = [ONum 2] /\ path (fst (build num 0 dotted)) 0 [env ++ dot :: agt] 3.
Proof.
  split; [reflexivity|]. split; [reflexivity|]. apply path_one. eexists. split; [reflexivity|]. cbn. auto.
Qed.
Print Assumptions C116_dotted_limit.
Example C117_example :
  snd (step num tb_tree (LLookup 1 (join [agt; drv]))) = [OComp (Some 3)] /\
  snd (step num tb_tree (LLookup 3 (dot :: join [env; agt; drv]))) = [OComp (Some 3)] /\
  snd (step num tb_tree (LLookup 2 (join [agt; drv]))) = [OWarn; OComp None].
Proof. repeat split; reflexivity. Qed.
(** Two dots in a row start again at uvm_top; a dot at the end is not found; a component
    whose name has a dot is never found. *)
Theorem C117_dots_limit :
  snd (step num tb_tree (LLookup 1 (agt ++ dot :: dot :: env))) = [OComp (Some 1)] /\
  snd (step num tb_tree (LLookup 1 (agt ++ [dot]))) = [OWarn; OComp None] /\
  snd (step num tb_tree (LLookup 1 [])) = [OWarn; OComp None] /\
  (let t := fst (build num 0 dotted) in snd (step num t (LFullName 3)) = [OStr (join [env; agt])] /\
   snd (step num t (LLookup 0 (dot :: join [env; agt]))) = [OComp (Some 2)]).
Proof. repeat split; reflexivity. Qed.
Print Assumptions C117_dots_limit.
Example C118_example :
  simple ["*"; "a"; "g"; "*"] /\
  snd (step num tb_tree (LFindAll ["*"; "a"; "g"; "*"] 0)) = [OComps [3; 2]] /\
  snd (step num tb_tree (LFind (join [env; agt; drv]))) = [OComp (Some 3)] /\
  snd (step num tb_tree (LFind env)) = [OWarn; OComp (Some 3)] /\
  snd (step num tb_tree (LFind ["x"])) = [ORaise].
Proof.
  split; [|repeat split; vm_compute; reflexivity]. split; [repeat (apply Forall_cons; [unfold plain; cbn; intuition discriminate|]); apply Forall_nil|]. intros (m & H & _). discriminate.
Qed.
(** Searching while children are gone through ends the iteration. *)
Theorem C118_iteration_limit :
  snd (run_machine (step num) tb_tree [LFirst 1; LFindAll drv 0; LNext 1]) = [OComp (Some 2); OComps [3]; OComp None] /\
  snd (run_machine (step num) tb_tree [LFirst 1; LNext 1]) = [OComp (Some 2); OComp (Some 4)].
Proof. split; vm_compute; reflexivity. Qed.
Print Assumptions C118_iteration_limit.
End Examples.
