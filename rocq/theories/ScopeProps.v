(** C64: the scope stack. *)
From Coq Require Import List Bool Arith Lia.
From Verif Require Import ScopeModel.
Import ListNotations.
Local Open Scope nat_scope.

(** starts with [, ( or { *)
Definition opens (v : str) : bool :=
  match v with [] => false | c :: _ => Nat.eqb c 91 || Nat.eqb c 40 || Nat.eqb c 123 end.
(** Balanced calls: down with a name not starting with a bracket is closed by up,
    down_element by up_element; arguments may be set anywhere. *)
Inductive nest : list op -> Prop :=
| N_nil : nest []
| N_arg a os : nest os -> nest (SetArg a :: os)
| N_unarg a os : nest os -> nest (UnsetArg a :: os)
| N_down s os1 os2 : opens s = false -> nest os1 -> nest os2 ->
    nest (Down s :: os1 ++ Up 46 :: os2)
| N_el d os1 os2 : nest os1 -> nest os2 -> nest (DownEl d :: os1 ++ UpEl :: os2).

Lemma run_app y os1 os2 : run y (os1 ++ os2) = run (run y os1) os2.
Proof. apply fold_left_app. Qed.
Lemma run_cons y o os : run y (o :: os) = run (step y o) os.
Proof. reflexivity. Qed.
Lemma run_nil y : run y [] = y.
Proof. reflexivity. Qed.

Lemma nest_stack os : nest os -> forall y, m_stack (run y os) = m_stack y.
Proof.
  induction 1 as [|a os H IH|a os H IH|s os1 os2 Hs H1 IH1 H2 IH2|d os1 os2 H1 IH1 H2 IH2]; intros y.
  - reflexivity.
  - rewrite ?run_cons, ?run_nil; cbn [step]. rewrite IH. unfold set_arg. now destruct a.
  - rewrite ?run_cons, ?run_nil; cbn [step]. rewrite IH. unfold unset_arg. destruct (m_arg y); [|reflexivity].
    now destruct (str_eq_dec a s).
  - change (Down s :: os1 ++ Up 46 :: os2) with ([Down s] ++ os1 ++ [Up 46] ++ os2).
    rewrite !run_app, IH2. rewrite ?run_cons, ?run_nil; cbn [step]. unfold up. cbn [m_stack].
    rewrite IH1. unfold down; cbn [m_stack]. rewrite rev_app_distr. cbn [rev app pop_until].
    change (starts_br s = false) in Hs. rewrite Nat.eqb_refl, Hs. cbn [negb]. apply rev_involutive.
  - change (DownEl d :: os1 ++ UpEl :: os2) with ([DownEl d] ++ os1 ++ [UpEl] ++ os2).
    rewrite !run_app, IH2. rewrite ?run_cons, ?run_nil; cbn [step]. unfold up_element.
    rewrite IH1. unfold down_element; cbn [m_stack]. rewrite rev_app_distr. cbn [rev app].
    rewrite Nat.eqb_refl. cbn [m_stack]. apply rev_involutive.
Qed.

(** Entering and leaving a scope, whatever balanced calls are made inside, restores
    the scope string of a stack that had no argument. *)
Theorem C64_balanced s os y : opens s = false -> nest os -> m_arg y = AStr [] ->
  get (run y (Down s :: os ++ [Up 46])) = get y.
Proof.
  intros Hs Ho Ha. change (Down s :: os ++ [Up 46]) with ([Down s] ++ os ++ [Up 46]).
  rewrite !run_app. rewrite ?run_cons, ?run_nil; cbn [step].
  assert (E : m_stack (up (run (down y s) os) 46) = m_stack y).
  { unfold up. cbn [m_stack]. rewrite nest_stack by assumption. unfold down; cbn [m_stack].
    rewrite rev_app_distr. cbn [rev app pop_until]. change (starts_br s = false) in Hs. rewrite Nat.eqb_refl, Hs. apply rev_involutive. }
  unfold get. rewrite E, Ha. reflexivity.
Qed.
Print Assumptions C64_balanced.

(** A name starting with a bracket is not the name that up removes: the enclosing
    scope goes with it. *)
Theorem C64_bracket_name y n s : opens n = false -> opens s = true ->
  m_stack (run y [Down n; Down s; Up 46]) = m_stack y.
Proof.
  intros Hn Hs. rewrite !run_cons, run_nil. cbn [step]. unfold up, down; cbn [m_stack]. rewrite !rev_app_distr. cbn [rev app pop_until].
  change (starts_br s = true) in Hs. change (starts_br n = false) in Hn. rewrite Nat.eqb_refl, Hs. cbn [negb]. rewrite Hn. cbn [negb]. apply rev_involutive.
Qed.
Print Assumptions C64_bracket_name.

(** up with another separator, as in up("["), goes back to the last name that starts with it
    and removes that name too; without one it removes all. *)
Definition begins (c : nat) (v : str) : bool := match v with [] => false | x :: _ => Nat.eqb x c end.
Lemma run_downs ns : forall y, m_stack (run y (map Down ns)) = m_stack y ++ ns.
Proof.
  induction ns as [|n ns IH]; intros y; [cbn; now rewrite app_nil_r|]. cbn [map]. rewrite run_cons, IH. cbn [step].
  unfold down. cbn [m_stack]. now rewrite <- app_assoc.
Qed.
Lemma pop_none f l r : forallb (fun v => negb (f v)) l = true -> pop_until f (l ++ r) = pop_until f r.
Proof.
  induction l as [|v l IH]; intros H; auto. cbn in H. apply andb_true_iff in H. destruct H as [H1 H2]. apply negb_true_iff in H1.
  cbn [app pop_until]. rewrite H1. auto.
Qed.
Theorem C64_separator y c s ns : c <> 46 -> forallb (fun v => negb (begins c v)) ns = true ->
  m_stack (run y (Down (c :: s) :: map Down ns ++ [Up c])) = m_stack y /\
  (forallb (fun v => negb (begins c v)) (m_stack y) = true -> m_stack (run y (map Down ns ++ [Up c])) = []).
Proof.
  intros N F. assert (E : Nat.eqb c dot = false) by (now apply Nat.eqb_neq).
  assert (FR : forall l, forallb (fun v => negb (begins c v)) l = true -> forallb (fun v => negb (begins c v)) (rev l) = true).
  { intros l H. rewrite forallb_forall in *. intros v I. apply H. now apply in_rev. }
  assert (P : forall l r, forallb (fun v => negb (begins c v)) l = true ->
    pop_until (fun v => if Nat.eqb c dot then negb (starts_br v) else begins c v) (l ++ r) =
    pop_until (fun v => if Nat.eqb c dot then negb (starts_br v) else begins c v) r).
  { intros l r H. apply pop_none. rewrite E. exact H. }
  assert (UP : forall z, m_stack (up z c) = rev (pop_until (fun v => if Nat.eqb c dot then negb (starts_br v) else begins c v) (rev (m_stack z)))) by reflexivity.
  split.
  - change (Down (c :: s) :: map Down ns ++ [Up c]) with (map Down ((c :: s) :: ns) ++ [Up c]). rewrite run_app, run_cons, run_nil. cbn [step]. 
    rewrite UP, run_downs, rev_app_distr. cbn [rev]. rewrite <- app_assoc. cbn [app].
    rewrite P by auto. cbn [pop_until begins]. rewrite E, Nat.eqb_refl. apply rev_involutive.
  - intros G. rewrite run_app, run_cons, run_nil. cbn [step]. rewrite UP, run_downs.
    rewrite <- (app_nil_r (rev (m_stack y ++ ns))), P; auto. apply FR. now rewrite forallb_app, G, F.
Qed.
Print Assumptions C64_separator.
Example C64_separator_example :
  m_stack (run scope0 [Down [97]; Down [91; 51; 93]; Down [98]; Up 91]) = [[97]] /\
  m_stack (run scope0 [Down [97]; Down [98]; Up 91]) = [].
Proof. split; reflexivity. Qed.

(** The scope string of names with element indices. *)
Definition element (d : str) : str := 91 :: d ++ [93].
Fixpoint dotted (gs : list str) : str :=
  match gs with [] => [] | [g] => g | g :: r => g ++ 46 :: dotted r end.
Definition groups (ps : list (str * list str)) : list str :=
  map (fun p => fst p ++ concat (map element (snd p))) ps.
Definition enter (ps : list (str * list str)) : list op :=
  concat (map (fun p => Down (fst p) :: map DownEl (snd p)) ps).

Lemma join_els g els vs : join g (map element els ++ vs) = join (g ++ concat (map element els)) vs.
Proof.
  revert g. induction els as [|e els IH]; intros g; cbn [map concat app join].
  - now rewrite app_nil_r.
  - change (starts_br (element e)) with true. cbv iota. rewrite IH. now rewrite app_assoc.
Qed.
Definition names (ps : list (str * list str)) : list str :=
  concat (map (fun p => fst p :: map element (snd p)) ps).
Lemma enter_stack ps y : m_stack (run y (enter ps)) = m_stack y ++ names ps.
Proof.
  revert y. induction ps as [|[n els] ps IH]; intros y; cbn [enter map concat names].
  - now rewrite app_nil_r.
  - rewrite run_app. fold (enter ps). rewrite IH. fold (names ps). rewrite app_assoc. f_equal.
    cbn [fst snd]. rewrite run_cons. cbn [step]. unfold run.
    assert (H : forall y, m_stack (fold_left step (map DownEl els) y) = m_stack y ++ map element els).
    { clear. induction els as [|e els IH]; intros y; cbn [map fold_left step]; [now rewrite app_nil_r|].
      rewrite IH. unfold down_element; cbn [m_stack]. now rewrite <- app_assoc. }
    rewrite H. unfold down; cbn [m_stack]. now rewrite <- app_assoc.
Qed.
Lemma enter_arg ps y : ps <> [] -> m_arg (run y (enter ps)) = AStr [].
Proof.
  assert (HE : forall els y, m_arg y = AStr [] -> m_arg (fold_left step (map DownEl els) y) = AStr []).
  { clear. induction els as [|e els IH]; intros y H; cbn [map fold_left step]; auto. }
  assert (HP : forall ps y, m_arg y = AStr [] -> m_arg (run y (enter ps)) = AStr []).
  { clear - HE. induction ps as [|[n els] ps IH]; intros y H; auto.
    cbn [enter map concat fst snd]. rewrite run_app. apply IH. rewrite ?run_cons, ?run_nil; cbn [step]. now apply HE. }
  intros H. destruct ps as [|[n els] ps]; [contradiction|].
  cbn [enter map concat fst snd]. rewrite run_app. apply HP. rewrite ?run_cons, ?run_nil; cbn [step]. now apply HE.
Qed.

Lemma join_dotted ps : forall g, Forall (fun p => opens (fst p) = false) ps ->
  join g (names ps) = dotted (g :: groups ps).
Proof.
  induction ps as [|[n els] ps IH]; intros g HF; [reflexivity|].
  inversion HF as [|? ? Hn HF']; subst. cbn [fst] in Hn. change (starts_br n = false) in Hn.
  cbn [names map concat fst snd app join]. rewrite Hn. rewrite join_els. fold (names ps). rewrite IH by assumption.
  cbn [groups map fst snd dotted]. destruct (groups ps) eqn:E; unfold groups in E; rewrite E; rewrite <- !app_assoc; cbn [app]; rewrite <- ?app_assoc; reflexivity.
Qed.

(** Names are separated by dots, elements attached in brackets. *)
Theorem C64_string p ps : Forall (fun p => opens (fst p) = false) ps ->
  get (run scope0 (enter (p :: ps))) = Some (AStr (dotted (groups (p :: ps)))).
Proof.
  intros HF. unfold get. rewrite enter_stack, enter_arg by discriminate. cbn [scope0 m_stack app].
  destruct p as [n els]. cbn [names map concat fst snd app]. fold (names ps).
  rewrite join_els, join_dotted by assumption. reflexivity.
Qed.
Print Assumptions C64_string.

(** An argument adds one more name; with an element argument the string cannot be
    built. *)
Theorem C64_argument p ps a : Forall (fun p => opens (fst p) = false) ps -> a <> [] ->
  dotted (groups (p :: ps)) <> [] ->
  get (run scope0 (enter (p :: ps) ++ [SetArg a])) = Some (AStr (dotted (groups (p :: ps)) ++ 46 :: a)).
Proof.
  intros HF Ha Hd. pose proof (C64_string p ps HF) as H. rewrite run_app. rewrite ?run_cons, ?run_nil; cbn [step].
  unfold set_arg. destruct a as [|c a]; [contradiction|]. unfold get in *. cbn [m_stack m_arg].
  rewrite enter_arg in H by discriminate.
  destruct (m_stack (run scope0 (enter (p :: ps)))) as [|v0 vs]; [exfalso; apply Hd; congruence|].
  assert (H' : join v0 vs = dotted (groups (p :: ps))) by congruence. rewrite H'. clear H H'.
  destruct (dotted (groups (p :: ps))); [contradiction|reflexivity].
Qed.
Print Assumptions C64_argument.

Theorem C64_argument_element p ps a d : Forall (fun p => opens (fst p) = false) ps ->
  dotted (groups (p :: ps)) <> [] ->
  get (run scope0 (enter (p :: ps) ++ [SetArgEl a d])) = None.
Proof.
  intros HF Hd. pose proof (C64_string p ps HF) as H. rewrite run_app. rewrite ?run_cons, ?run_nil; cbn [step].
  unfold set_arg_element, get in *. cbn [m_stack m_arg].
  rewrite enter_arg in H by discriminate.
  destruct (m_stack (run scope0 (enter (p :: ps)))) as [|v0 vs]; [exfalso; apply Hd; congruence|].
  assert (H' : join v0 vs = dotted (groups (p :: ps))) by congruence. rewrite H'. clear H H'.
  destruct (dotted (groups (p :: ps))); [contradiction|reflexivity].
Qed.
Print Assumptions C64_argument_element.

(** set() leaves just the given name; unset_arg() takes away the argument set, and
    nothing when it is not the one given. *)
Theorem C64_set os s : get (run scope0 (os ++ [SetTop s])) = Some (AStr s).
Proof. rewrite run_app. reflexivity. Qed.
Theorem C64_unset_arg p ps a b : Forall (fun p => opens (fst p) = false) ps -> a <> [] ->
  get (run scope0 (enter (p :: ps) ++ [SetArg a; UnsetArg b])) =
  if str_eq_dec b a then Some (AStr (dotted (groups (p :: ps))))
  else get (run scope0 (enter (p :: ps) ++ [SetArg a])).
Proof.
  intros HF Ha. pose proof (C64_string p ps HF) as H. rewrite !run_app, !run_cons, !run_nil. cbn [step].
  unfold set_arg. destruct a as [|c a]; [contradiction|].
  unfold unset_arg. cbn [m_arg m_stack]. destruct (str_eq_dec b (c :: a)) as [->|]; [|reflexivity].
  rewrite <- H. unfold get. cbn [m_arg m_stack]. rewrite enter_arg by discriminate. reflexivity.
Qed.
Example C64_example :     (* a[3].b *)
  get (run scope0 [Down [97]; DownEl [51]; Down [98]]) = Some (AStr [97; 91; 51; 93; 46; 98])
  /\ nest [DownEl [51]; Down [98]; SetArg [99]; Up 46; UpEl]
  /\ get (run scope0 [Down [97]; Down [120]; DownEl [51]; Down [98]; SetArg [99]; Up 46; UpEl; Up 46])
     = get (run scope0 [Down [97]]).
Proof.
  split; [reflexivity|]. split; [|reflexivity].
  apply (N_el [51] [Down [98]; SetArg [99]; Up 46] []); [|constructor].
  apply (N_down [98] [SetArg [99]] []); [reflexivity| |constructor]. repeat constructor.
Qed.
Print Assumptions C64_set.
Print Assumptions C64_unset_arg.
