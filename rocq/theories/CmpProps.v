(** C62: the in-order comparator; C101: the algorithmic comparator. *)
From Coq Require Import ZArith List Bool Arith Lia.
From Verif Require Import Prelude MailboxModel TlmFifoModel CmpModel.
Import ListNotations.

(** ** Specification *)
Section Spec.
Context {A : Type}.
Definition befores (ls : list (cmplab A)) : list A := flat_map (fun l => match l with WriteBefore x => [x] | _ => [] end) ls.
Definition afters (ls : list (cmplab A)) : list A := flat_map (fun l => match l with WriteAfter x => [x] | _ => [] end) ls.
(** Pairs as (before, after). *)
Definition published (tr : list (cmpout A)) : list (A * A) :=
  flat_map (fun o => match o with Published a b => [(b, a)] | _ => [] end) tr.
Definition errors (tr : list (cmpout A)) : list (A * A) :=
  flat_map (fun o => match o with Mismatch a b => [(b, a)] | _ => [] end) tr.
(** What was seen after the last flush. *)
Fixpoint since_flush (acc tr : list (cmpout A)) : list (cmpout A) :=
  match tr with
  | [] => acc
  | Flushed :: t => since_flush [] t
  | o :: t => since_flush (acc ++ [o]) t
  end.
Definition zcount {B} (f : B -> bool) (l : list B) : Z := Z.of_nat (length (filter f l)).
End Spec.

(** ** Proofs *)
Section Proofs.
Context {A : Type} (comp : A -> A -> pyres).
Notation run := (cmprun comp).

Definition fifo_idle (f : fifo A) : Prop := max_size (fm f) = 0%Z /\ procs (fm f) 1 = Idle /\ procs (fm f) 0 = Idle.
Definition fifo_in (f : fifo A) : Prop :=
  max_size (fm f) = 0%Z /\ procs (fm f) 1 = Idle /\
  ((procs (fm f) 0 = WaitGet /\ queue (fm f) = []) \/ procs (fm f) 0 = WokenGet).

Lemma write_queue (f : fifo A) x : max_size (fm f) = 0%Z -> procs (fm f) 1 = Idle ->
  queue (fm (fst (analysis_write f 1 x))) = queue (fm f) ++ [x].
Proof.
  intros Hm Hp. unfold analysis_write. cbn [mstep]. rewrite Hp. unfold try_put, can_put. rewrite Hm. reflexivity.
Qed.
Lemma write_idle (f : fifo A) x : fifo_idle f -> fifo_idle (fst (analysis_write f 1 x)).
Proof.
  intros (Hm & Hp & H0). unfold analysis_write. cbn [mstep]. rewrite Hp. unfold try_put, can_put. rewrite Hm. cbn.
  repeat split; cbn; [exact Hm|now rewrite Hp|now rewrite H0].
Qed.
Lemma write_in (f : fifo A) x : fifo_in f -> fifo_in (fst (analysis_write f 1 x)).
Proof.
  intros (Hm & Hp & H0). unfold analysis_write. cbn [mstep]. rewrite Hp. unfold try_put, can_put. rewrite Hm. cbn.
  split; [exact Hm|]. cbn. split; [now rewrite Hp|]. right. destruct H0 as [[-> _]| ->]; reflexivity.
Qed.

Definition get_ok (f : fifo A) (r : fifo A * list (fout A)) : Prop :=
  match queue (fm f) with
  | x :: q => got (snd r) = Some x /\ queue (fm (fst r)) = q /\ fifo_idle (fst r)
  | [] => got (snd r) = None /\ queue (fm (fst r)) = [] /\ fifo_in (fst r) /\ procs (fm (fst r)) 0 = WaitGet
  end.
Lemma get_loop_get_ok (f g : fifo A) m : max_size m = 0%Z -> procs m 1 = Idle -> queue m = queue (fm f) ->
  get_ok f (after_blocking g (get_loop m 0)).
Proof.
  intros Hm Hp Hq. unfold get_ok, get_loop, can_get, get_tail. rewrite Hq.
  destruct (queue (fm f)) as [|x q] eqn:E.
  - cbn. unfold fifo_in. cbn. rewrite Hq. repeat split; auto.
  - assert ((0 <? Z.of_nat (length (x :: q)))%Z = true) as -> by (apply Z.ltb_lt; cbn [length]; lia).
    cbn. unfold fifo_idle. cbn. rewrite Hp. auto.
Qed.
Lemma get_call (f : fifo A) : fifo_idle f -> get_ok f (fstep f (FCall 0 FGet)).
Proof.
  intros (Hm & Hp & H0). cbn [fstep mstep]. rewrite H0.
  apply get_loop_get_ok; auto.
Qed.
Lemma get_resume (f : fifo A) : fifo_in f ->
  get_ok f (fstep f (FResume 0)).
Proof.
  intros (Hm & Hp & [[H0 Hq]|H0]); cbn [fstep mstep]; rewrite H0.
  - unfold get_ok. rewrite Hq. cbn. unfold fifo_in. cbn. rewrite Hq. repeat split; auto.
  - apply get_loop_get_ok; auto.
Qed.

Definition held (c : cmp A) : list A := match at_ c with AtAfter b | InAfter b => [b] | _ => [] end.
Record CInv (c : cmp A) (B Af : list A) (tr : list (cmpout A)) : Prop := {
  ci_b : B = map fst (published tr) ++ held c ++ queue (fm (before_fifo c));
  ci_a : Af = map snd (published tr) ++ queue (fm (after_fifo c));
  ci_bf : match at_ c with InBefore => fifo_in (before_fifo c) | _ => fifo_idle (before_fifo c) end;
  ci_af : match at_ c with InAfter _ => fifo_in (after_fifo c) | _ => fifo_idle (after_fifo c) end;
  ci_m : m_matches c = zcount (fun p => negb (is_False (comp (fst p) (snd p)))) (published (since_flush [] tr));
  ci_mm : m_mismatches c = zcount (fun p => is_False (comp (fst p) (snd p))) (published (since_flush [] tr));
  ci_err : errors tr = filter (fun p => is_False (comp (fst p) (snd p))) (published tr)
}.

Lemma published_app (a b : list (cmpout A)) : published (a ++ b) = published a ++ published b.
Proof. apply flat_map_app. Qed.
Lemma errors_app (a b : list (cmpout A)) : errors (a ++ b) = errors a ++ errors b.
Proof. apply flat_map_app. Qed.
Lemma befores_app (a b : list (cmplab A)) : befores (a ++ b) = befores a ++ befores b.
Proof. apply flat_map_app. Qed.
Lemma afters_app (a b : list (cmplab A)) : afters (a ++ b) = afters a ++ afters b.
Proof. apply flat_map_app. Qed.
Lemma since_app (tr : list (cmpout A)) : forall acc o, since_flush acc (tr ++ o) = since_flush (since_flush acc tr) o.
Proof. induction tr as [|[]]; intros; cbn; auto. Qed.
Lemma since_none (o : list (cmpout A)) : forall acc, ~ In Flushed o -> since_flush acc o = acc ++ o.
Proof.
  induction o as [|e o IH]; intros acc H; cbn; [now rewrite app_nil_r|].
  destruct e; cbn; try (rewrite IH by firstorder; now rewrite <- app_assoc). destruct H. now left.
Qed.
Lemma zcount_app {B} f (a b : list B) : zcount f (a ++ b) = (zcount f a + zcount f b)%Z.
Proof. unfold zcount. rewrite filter_app, app_length. lia. Qed.

Lemma cinv_step c B Af tr l : CInv c B Af tr ->
  CInv (fst (cmpstep comp c l)) (B ++ befores [l]) (Af ++ afters [l]) (tr ++ snd (cmpstep comp c l)).
Proof.
  intros [Hb Ha Hbf Haf Hm Hmm He].
  assert (Hmaxb : max_size (fm (before_fifo c)) = 0%Z /\ procs (fm (before_fifo c)) 1 = Idle)
    by (destruct (at_ c); [destruct Hbf as (?&?&?)|destruct Hbf as (?&?&?)|destruct Hbf as (?&?&?)|destruct Hbf as (?&?&?)]; auto).
  assert (Hmaxa : max_size (fm (after_fifo c)) = 0%Z /\ procs (fm (after_fifo c)) 1 = Idle)
    by (destruct (at_ c); [destruct Haf as (?&?&?)|destruct Haf as (?&?&?)|destruct Haf as (?&?&?)|destruct Haf as (?&?&?)]; auto).
  destruct l as [x|x| |].
  - cbn [cmpstep fst snd]. cbn [befores afters flat_map]. rewrite !app_nil_r.
    constructor; cbn [before_fifo after_fifo at_ m_matches m_mismatches]; auto.
    + rewrite write_queue by tauto. rewrite Hb. unfold held. cbn [at_]. now rewrite !app_assoc.
    + destruct (at_ c); auto using write_idle, write_in.
  - cbn [cmpstep fst snd]. cbn [befores afters flat_map]. rewrite !app_nil_r.
    constructor; cbn [before_fifo after_fifo at_ m_matches m_mismatches]; auto.
    + rewrite write_queue by tauto. rewrite Ha. now rewrite !app_assoc.
    + destruct (at_ c); auto using write_idle, write_in.
  - cbn [befores afters flat_map]. rewrite !app_nil_r. cbn [cmpstep].
    assert (Gb : forall l, held c = [] -> match at_ c with InAfter _ => False | _ => True end ->
      get_ok (before_fifo c) (fstep (before_fifo c) l) ->
      fifo_idle (after_fifo c) ->
      CInv (fst (go_before c l)) B Af (tr ++ snd (go_before c l))).
    { intros l Hh Hat Hg Hidle. unfold go_before. destruct (fstep (before_fifo c) l) as [f o].
      unfold get_ok in Hg. cbn [fst snd] in *. rewrite app_nil_r. rewrite Hh in Hb. cbn [app] in Hb.
      destruct (queue (fm (before_fifo c))) as [|x q].
      - destruct Hg as (-> & Hq & Hin & _).
        constructor; cbn [before_fifo after_fifo at_ m_matches m_mismatches]; auto. unfold held. cbn. now rewrite Hq.
      - destruct Hg as (-> & Hq & Hin).
        constructor; cbn [before_fifo after_fifo at_ m_matches m_mismatches]; auto. unfold held. cbn. now rewrite Hq. }
    assert (Ga : forall b l, held c = [b] -> fifo_idle (before_fifo c) ->
      get_ok (after_fifo c) (fstep (after_fifo c) l) ->
      CInv (fst (go_after comp c b l)) B Af (tr ++ snd (go_after comp c b l))).
    { intros b l Hh Hidle Hg. unfold go_after. destruct (fstep (after_fifo c) l) as [f o].
      unfold get_ok in Hg. cbn [fst snd] in *. rewrite Hh in Hb.
      destruct (queue (fm (after_fifo c))) as [|x q].
      - destruct Hg as (-> & Hq & Hin & _). cbn [fst snd]. rewrite app_nil_r.
        constructor; cbn [before_fifo after_fifo at_ m_matches m_mismatches]; auto. rewrite Hq. exact Ha.
      - destruct Hg as (-> & Hq & Hin). unfold compare_pair.
        destruct (is_False (comp b x)) eqn:E; cbn [fst snd before_fifo after_fifo];
          constructor; cbn [before_fifo after_fifo at_ m_matches m_mismatches]; auto;
          rewrite ?published_app, ?errors_app, ?since_app, ?(since_none (_ :: _)) by (cbn; intuition discriminate);
          rewrite ?published_app, ?zcount_app, ?map_app, ?filter_app.
        + rewrite Hb. unfold held. cbn. now rewrite <- !app_assoc.
        + rewrite Ha, Hq. cbn. now rewrite <- !app_assoc.
        + rewrite <- Hm. unfold zcount. cbn. rewrite E. cbn. lia.
        + rewrite <- Hmm. unfold zcount. cbn. rewrite E. cbn. lia.
        + rewrite He. cbn. rewrite E. reflexivity.
        + rewrite Hb. unfold held. cbn. now rewrite <- !app_assoc.
        + rewrite Ha, Hq. cbn. now rewrite <- !app_assoc.
        + rewrite <- Hm. unfold zcount. cbn. rewrite E. cbn. lia.
        + rewrite <- Hmm. unfold zcount. cbn. rewrite E. cbn. lia.
        + rewrite He. cbn. rewrite E. reflexivity. }
    destruct (at_ c) as [| |b|b] eqn:Eat.
    + apply Gb; auto; [unfold held; now rewrite Eat|now apply get_call].
    + apply Gb; auto; [unfold held; now rewrite Eat|now apply get_resume].
    + apply Ga; auto; [unfold held; now rewrite Eat|now apply get_call].
    + apply Ga; auto; [unfold held; now rewrite Eat|now apply get_resume].
  - cbn [cmpstep fst snd]. cbn [befores afters flat_map]. rewrite !app_nil_r.
    constructor; cbn [before_fifo after_fifo at_ m_matches m_mismatches]; auto;
      rewrite ?published_app, ?errors_app, ?since_app; cbn; rewrite ?app_nil_r; auto.
Qed.

Lemma cmprun_snoc ls l : run (ls ++ [l]) =
  (fst (cmpstep comp (fst (run ls)) l), snd (run ls) ++ snd (cmpstep comp (fst (run ls)) l)).
Proof.
  unfold cmprun. rewrite run_machine_app. destruct (run_machine (cmpstep comp) cmp0 ls) as [c o]. cbn [fst snd].
  cbn. destruct (cmpstep comp c l). cbn. now rewrite app_nil_r.
Qed.
Lemma cinv_run ls : CInv (fst (run ls)) (befores ls) (afters ls) (snd (run ls)).
Proof.
  induction ls as [|l ls IH] using rev_ind.
  - constructor; cbn; auto; unfold fifo_idle; cbn; auto.
  - rewrite cmprun_snoc, befores_app, afters_app. cbn [fst snd]. now apply cinv_step.
Qed.

Lemma pairs_prefix (P : list (A * A)) B Af rb ra : B = map fst P ++ rb -> Af = map snd P ++ ra ->
  P = firstn (length P) (combine B Af) /\ (length P <= Nat.min (length B) (length Af))%nat.
Proof.
  intros -> ->. split.
  - induction P as [|[b a] P IH]; [reflexivity|]. cbn. now rewrite <- IH.
  - rewrite !app_length, !map_length. lia.
Qed.

(** *** Progress *)
Definition done_all (c : cmp A) : Prop :=
  match at_ c with
  | AtBefore | InBefore => queue (fm (before_fifo c)) = []
  | AtAfter _ | InAfter _ => queue (fm (after_fifo c)) = []
  end.
Lemma go_progress ls : done_all (fst (run ls)) \/
  length (published (snd (run (ls ++ [Go; Go])))) = S (length (published (snd (run ls)))) \/
  done_all (fst (run (ls ++ [Go]))) \/ length (published (snd (run (ls ++ [Go])))) = S (length (published (snd (run ls)))).
Proof.
  assert (Ga : forall ls b, at_ (fst (run ls)) = AtAfter b \/ at_ (fst (run ls)) = InAfter b -> done_all (fst (run ls)) \/
    length (published (snd (run (ls ++ [Go])))) = S (length (published (snd (run ls))))).
  { intros ls' b Hat. rewrite cmprun_snoc. cbn [fst snd]. destruct (cinv_run ls') as [Hb Ha Hbf Haf _ _ _].
    set (c := fst (run ls')) in *. cbn [cmpstep]. unfold done_all.
    assert (get_ok (after_fifo c) (fstep (after_fifo c) (match at_ c with AtAfter _ => FCall 0 FGet | _ => FResume 0 end))) as Hg
      by (destruct Hat as [E|E]; rewrite E in *; auto using get_call, get_resume).
    unfold get_ok in Hg. destruct (queue (fm (after_fifo c))) as [|x q] eqn:Eq.
    - left. destruct Hat as [-> | ->]; auto.
    - right. destruct Hg as (Hg & _).
      destruct Hat as [E|E]; rewrite E in *; unfold go_after, compare_pair; destruct (fstep (after_fifo c) _) as [f o]; cbn [snd] in Hg; rewrite Hg;
        destruct (is_False (comp b x)); cbn [snd]; rewrite published_app, app_length; cbn; lia. }
  destruct (at_ (fst (run ls))) as [| |b|b] eqn:Eat.
  3,4: destruct (Ga ls b) as [H|H]; auto.
  - destruct (queue (fm (before_fifo (fst (run ls))))) as [|x q] eqn:Eq; [left; unfold done_all; now rewrite Eat|].
    right. destruct (cinv_run ls) as [_ _ Hbf _ _ _ _]. rewrite Eat in Hbf.
    pose proof (get_call _ Hbf) as Hg. unfold get_ok in Hg. rewrite Eq in Hg. destruct Hg as (Hg & _).
    assert (at_ (fst (run (ls ++ [Go]))) = AtAfter x /\ snd (run (ls ++ [Go])) = snd (run ls)) as [E1 E2].
    { rewrite cmprun_snoc. cbn [fst snd cmpstep]. rewrite Eat. unfold go_before. destruct (fstep (before_fifo (fst (run ls))) _) as [f o]. cbn [snd] in Hg.
      rewrite Hg. cbn. now rewrite app_nil_r. }
    destruct (Ga (ls ++ [Go]) x (or_introl E1)) as [H|H]; [right; left; exact H|left].
    rewrite <- app_assoc in H. cbn [app] in H. now rewrite H, E2.
  - destruct (queue (fm (before_fifo (fst (run ls))))) as [|x q] eqn:Eq; [left; unfold done_all; now rewrite Eat|].
    right. destruct (cinv_run ls) as [_ _ Hbf _ _ _ _]. rewrite Eat in Hbf.
    pose proof (get_resume _ Hbf) as Hg. unfold get_ok in Hg. rewrite Eq in Hg. destruct Hg as (Hg & _).
    assert (at_ (fst (run (ls ++ [Go]))) = AtAfter x /\ snd (run (ls ++ [Go])) = snd (run ls)) as [E1 E2].
    { rewrite cmprun_snoc. cbn [fst snd cmpstep]. rewrite Eat. unfold go_before. destruct (fstep (before_fifo (fst (run ls))) _) as [f o]. cbn [snd] in Hg.
      rewrite Hg. cbn. now rewrite app_nil_r. }
    destruct (Ga (ls ++ [Go]) x (or_introl E1)) as [H|H]; [right; left; exact H|left].
    rewrite <- app_assoc in H. cbn [app] in H. now rewrite H, E2.
Qed.
Lemma done_all_pairs ls : done_all (fst (run ls)) -> published (snd (run ls)) = combine (befores ls) (afters ls).
Proof.
  destruct (cinv_run ls) as [Hb Ha _ _ _ _ _]. unfold done_all, held in *.
  assert (forall P : list (A * A), combine (map fst P) (map snd P) = P) as Hid by (induction P as [|[]]; cbn; congruence).
  assert (forall (P : list (A * A)) r, combine (map fst P) (map snd P ++ r) = P) as Hl by (induction P as [|[] P IH]; intros; cbn; [reflexivity|now rewrite IH]).
  assert (forall (P : list (A * A)) r, combine (map fst P ++ r) (map snd P) = P) as Hr by (induction P as [|[] P IH]; intros r; cbn; [now destruct r|now rewrite IH]).
  intros Hd. rewrite Hb, Ha. destruct (at_ (fst (run ls))); rewrite Hd; rewrite ?app_nil_r; cbn [app]; rewrite ?app_nil_r; auto.
Qed.
Lemma befores_go (ls : list (cmplab A)) n : befores (ls ++ repeat Go n) = befores ls.
Proof. rewrite befores_app. assert (befores (repeat (@Go A) n) = []) as -> by (induction n; auto). now rewrite app_nil_r. Qed.
Lemma afters_go (ls : list (cmplab A)) n : afters (ls ++ repeat Go n) = afters ls.
Proof. rewrite afters_app. assert (afters (repeat (@Go A) n) = []) as -> by (induction n; auto). now rewrite app_nil_r. Qed.
Lemma eventually_all k : forall ls, (length (combine (befores ls) (afters ls)) - length (published (snd (run ls))) <= k)%nat ->
  exists n, published (snd (run (ls ++ repeat Go n))) = combine (befores ls) (afters ls).
Proof.
  assert (base : forall (ls : list (cmplab A)) n, done_all (fst (run (ls ++ repeat Go n))) -> exists n, published (snd (run (ls ++ repeat Go n))) = combine (befores ls) (afters ls)).
  { intros ls n H. exists n. rewrite done_all_pairs by exact H. now rewrite befores_go, afters_go. }
  induction k as [|k IH]; intros ls Hk.
  - exists 0%nat. cbn [repeat]. rewrite app_nil_r.
    destruct (cinv_run ls) as [Hb Ha _ _ _ _ _]. destruct (pairs_prefix _ _ _ _ _ Hb Ha) as [-> Hl].
    rewrite <- combine_length in Hl. apply firstn_all2. lia.
  - assert (step : forall n, length (published (snd (run (ls ++ repeat Go n)))) = S (length (published (snd (run ls)))) ->
      exists n, published (snd (run (ls ++ repeat Go n))) = combine (befores ls) (afters ls)).
    { intros n Hn. destruct (IH (ls ++ repeat Go n)) as [m Hm].
      - rewrite befores_go, afters_go, Hn. lia.
      - exists (n + m)%nat. rewrite repeat_app, app_assoc, Hm. now rewrite befores_go, afters_go. }
    destruct (go_progress ls) as [H|[H|[H|H]]].
    + apply (base ls 0%nat). cbn [repeat]. now rewrite app_nil_r.
    + exact (step 2%nat H).
    + exact (base ls 1%nat H).
    + exact (step 1%nat H).
Qed.
End Proofs.

(** ** C62 *)
Section C62.
Context {A : Type} (comp : A -> A -> pyres).

(** At every moment, for every interleaving of writes, scheduling and flushes: the pairs
    published so far are the i-th before item with the i-th after item, in order. *)
Theorem C62_pairs (ls : list (cmplab A)) :
  exists n, (n <= Nat.min (length (befores ls)) (length (afters ls)))%nat /\
    published (snd (cmprun comp ls)) = firstn n (combine (befores ls) (afters ls)).
Proof.
  destruct (cinv_run comp ls) as [Hb Ha _ _ _ _ _]. destruct (pairs_prefix _ _ _ _ _ Hb Ha) as [HP Hl]. eauto.
Qed.
(** Nothing is left out once run_phase has been given enough turns. *)
Theorem C62_complete (ls : list (cmplab A)) :
  exists n, published (snd (cmprun comp (ls ++ repeat Go n))) = combine (befores ls) (afters ls).
Proof. eapply eventually_all. reflexivity. Qed.
(** The counters are exact since the last flush, and every mismatch is reported. *)
Theorem C62_counts (ls : list (cmplab A)) :
  let tr := snd (cmprun comp ls) in
  let differ := fun p => is_False (comp (fst p) (snd p)) in
  m_matches (fst (cmprun comp ls)) = zcount (fun p => negb (differ p)) (published (since_flush [] tr)) /\
  m_mismatches (fst (cmprun comp ls)) = zcount differ (published (since_flush [] tr)) /\
  errors tr = filter differ (published tr).
Proof. destruct (cinv_run comp ls); auto. Qed.
End C62.
(** With the library's policies a pair differs exactly if the policy says so. *)
Corollary C62_builtin_counts {A : Type} (eqb : A -> A -> bool) (ls : list (cmplab A)) :
  let r := cmprun (fun b a => RBool (eqb b a)) ls in
  m_matches (fst r) = zcount (fun p => eqb (fst p) (snd p)) (published (since_flush [] (snd r))) /\
  m_mismatches (fst r) = zcount (fun p => negb (eqb (fst p) (snd p))) (published (since_flush [] (snd r))) /\
  errors (snd r) = filter (fun p => negb (eqb (fst p) (snd p))) (published (snd r)).
Proof.
  pose proof (C62_counts (fun b a => RBool (eqb b a)) ls) as (H1 & H2 & H3). cbn zeta in *.
  assert (forall b, is_False (RBool b) = negb b) as Hf by now intros [].
  split; [rewrite H1|split; [rewrite H2|rewrite H3]]; unfold zcount.
  - erewrite filter_ext; [reflexivity|]. intros p. cbn beta. now rewrite Hf, negb_involutive.
  - erewrite filter_ext; [reflexivity|]. intros p. apply Hf.
  - erewrite filter_ext; [reflexivity|]. intros p. apply Hf.
Qed.
(** A user-supplied policy that never returns the value False, such as one returning 0 or
    nothing for unequal items, makes every pair a match. *)
Theorem C62_not_false {A : Type} (comp : A -> A -> pyres) (ls : list (cmplab A)) : (forall b a, comp b a <> RBool false) ->
  let r := cmprun comp ls in
  m_mismatches (fst r) = 0%Z /\ errors (snd r) = [] /\
  m_matches (fst r) = Z.of_nat (length (published (since_flush [] (snd r)))).
Proof.
  intros HN r. unfold r. pose proof (C62_counts comp ls) as (H1 & H2 & H3).
  assert (F : forall p : A * A, is_False (comp (fst p) (snd p)) = false).
  { intros p. specialize (HN (fst p) (snd p)). unfold is_False. destruct (comp (fst p) (snd p)) as [[]| |]; congruence. }
  assert (Hn : forall l : list (A * A), filter (fun p => is_False (comp (fst p) (snd p))) l = []).
  { induction l as [|x l IH]; [reflexivity|]. cbn [filter]. now rewrite F. }
  assert (Hy : forall l : list (A * A), filter (fun p => negb (is_False (comp (fst p) (snd p)))) l = l).
  { induction l as [|x l IH]; [reflexivity|]. cbn [filter]. rewrite F. cbn [negb]. now rewrite IH. }
  cbv zeta in *. rewrite H1, H2, H3. unfold zcount. rewrite !Hn, Hy. auto.
Qed.
Corollary C62_int_policy {A : Type} (eqb : A -> A -> bool) (ls : list (cmplab A)) :
  let r := cmprun (fun b a => RInt (if eqb b a then 1 else 0)) ls in
  m_mismatches (fst r) = 0%Z /\ errors (snd r) = [].
Proof. destruct (C62_not_false (fun b a => RInt (if eqb b a then 1 else 0)) ls) as (H1 & H2 & _); [discriminate|]. auto. Qed.
Example C62_example :
  let ls := [Go; WriteAfter 1; WriteAfter 2; Go; WriteBefore 1; Go; Go; WriteBefore 3; FlushCounts; Go; Go; WriteBefore 9] in
  let r := cmprun (fun b a => RBool (Nat.eqb b a)) ls in
  published (snd r) = [(1, 1); (3, 2)] /\ m_matches (fst r) = 0%Z /\ m_mismatches (fst r) = 1%Z /\ errors (snd r) = [(3, 2)].
Proof. repeat split. Qed.
Print Assumptions C62_not_false.
Print Assumptions C62_pairs.
Print Assumptions C62_complete.
Print Assumptions C62_counts.
Print Assumptions C62_builtin_counts.
Print Assumptions C62_int_policy.

(** ** C101: the algorithmic comparator compares the transformed before stream. *)
Section Alg.
Context {B A : Type} (comp : A -> A -> pyres) (transform : B -> A).
Definition abefores (ls : list (alglab B A)) : list B := flat_map (fun l => match l with AWriteBefore x => [x] | _ => [] end) ls.
Definition aafters (ls : list (alglab B A)) : list A := flat_map (fun l => match l with AWriteAfter x => [x] | _ => [] end) ls.
Definition inner (l : alglab B A) : cmplab A :=
  match l with AWriteBefore x => WriteBefore (transform x) | AWriteAfter x => WriteAfter x | AGo => Go | AFlush => FlushCounts end.
Lemma algrun_inner ls : algrun comp transform ls = cmprun comp (map inner ls).
Proof.
  unfold algrun, cmprun. generalize (@cmp0 A). induction ls as [|l ls IH]; intros c; [reflexivity|].
  cbn [map run_machine]. assert (algstep comp transform c l = cmpstep comp c (inner l)) as -> by now destruct l.
  destruct (cmpstep comp c (inner l)). now rewrite IH.
Qed.
Lemma befores_inner ls : befores (map inner ls) = map transform (abefores ls).
Proof. induction ls as [|[] ls IH]; cbn; auto. now f_equal. Qed.
Lemma afters_inner ls : afters (map inner ls) = aafters ls.
Proof. induction ls as [|[] ls IH]; cbn; auto. now f_equal. Qed.
Theorem C101_pairs (ls : list (alglab B A)) :
  exists n, (n <= Nat.min (length (abefores ls)) (length (aafters ls)))%nat /\
    published (snd (algrun comp transform ls)) = firstn n (combine (map transform (abefores ls)) (aafters ls)).
Proof.
  rewrite algrun_inner. destruct (C62_pairs comp (map inner ls)) as (n & Hn & HP).
  rewrite befores_inner, afters_inner, ?map_length in *. eauto.
Qed.
Theorem C101_complete (ls : list (alglab B A)) :
  exists n, published (snd (algrun comp transform (ls ++ repeat AGo n))) = combine (map transform (abefores ls)) (aafters ls).
Proof.
  destruct (C62_complete comp (map inner ls)) as (n & Hn). exists n.
  rewrite algrun_inner, map_app. rewrite befores_inner, afters_inner in Hn. rewrite <- Hn.
  assert (forall k, map inner (repeat AGo k) = repeat Go k) as -> by (induction k; cbn; congruence). reflexivity.
Qed.
Theorem C101_counts (ls : list (alglab B A)) :
  let r := algrun comp transform ls in
  let differ := fun p => is_False (comp (fst p) (snd p)) in
  m_matches (fst r) = zcount (fun p => negb (differ p)) (published (since_flush [] (snd r))) /\
  m_mismatches (fst r) = zcount differ (published (since_flush [] (snd r))).
Proof. rewrite algrun_inner. destruct (C62_counts comp (map inner ls)) as (H1 & H2 & _). auto. Qed.
End Alg.
Example C101_example :
  published (snd (algrun (fun b a => RBool (Nat.eqb b a)) (fun s => length s)
    [AWriteBefore [7; 7]; AWriteAfter 2; AGo; AGo; AWriteBefore [7]; AGo; AWriteAfter 5; AGo; AGo])) = [(2, 2); (1, 5)].
Proof. reflexivity. Qed.
Print Assumptions C101_pairs.
Print Assumptions C101_complete.
Print Assumptions C101_counts.
