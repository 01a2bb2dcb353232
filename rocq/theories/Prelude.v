(** Small definitions shared by several models. Nothing here models code. *)
From Coq Require Import Arith List.
Import ListNotations.

(** Point update of a table indexed by process / object identifiers. *)
Definition upd {B : Type} (f : nat -> B) (i : nat) (v : B) : nat -> B :=
  fun j => if Nat.eqb j i then v else f j.

Lemma upd_eq {B} (f : nat -> B) i v : upd f i v i = v.
Proof. unfold upd. now rewrite Nat.eqb_refl. Qed.

Lemma upd_neq {B} (f : nat -> B) i j v : j <> i -> upd f i v j = f j.
Proof. unfold upd. intros H. apply Nat.eqb_neq in H. now rewrite H. Qed.

(** Run a deterministic labelled machine over a list of labels, collecting its
    outputs in order. Every schedule / history is such a list. *)
Fixpoint run_machine {S L O : Type} (step : S -> L -> S * list O)
    (s : S) (ls : list L) : S * list O :=
  match ls with
  | [] => (s, [])
  | l :: ls' =>
      let '(s1, o1) := step s l in
      let '(s2, o2) := run_machine step s1 ls' in
      (s2, o1 ++ o2)
  end.

(** Rule for invariants relating the state reached and the outputs produced so
    far. *)
Lemma run_machine_inv {S L O : Type} (step : S -> L -> S * list O)
    (P : S -> list O -> Prop) :
  (forall s tr l, P s tr -> P (fst (step s l)) (tr ++ snd (step s l))) ->
  forall ls s tr, P s tr ->
    P (fst (run_machine step s ls)) (tr ++ snd (run_machine step s ls)).
Proof.
  intros Hstep ls. induction ls as [|l ls IH]; intros s tr HP; cbn [run_machine].
  - cbn. now rewrite app_nil_r.
  - pose proof (Hstep s tr l HP) as H1.
    destruct (step s l) as [s1 o1] eqn:E1. cbn [fst snd] in H1.
    specialize (IH s1 _ H1).
    destruct (run_machine step s1 ls) as [s2 o2]. cbn [fst snd] in *.
    now rewrite app_assoc.
Qed.

(** Same, when the admissible labels are restricted by [ok]. *)
Lemma run_machine_inv_ok {S L O : Type} (step : S -> L -> S * list O)
    (ok : L -> Prop) (P : S -> list O -> Prop) :
  (forall s tr l, ok l -> P s tr -> P (fst (step s l)) (tr ++ snd (step s l))) ->
  forall ls s tr, Forall ok ls -> P s tr ->
    P (fst (run_machine step s ls)) (tr ++ snd (run_machine step s ls)).
Proof.
  intros Hstep ls. induction ls as [|l ls IH]; intros s tr Hok HP; cbn [run_machine].
  - cbn. now rewrite app_nil_r.
  - inversion Hok as [|? ? Hl Hls]; subst.
    pose proof (Hstep s tr l Hl HP) as H1.
    destruct (step s l) as [s1 o1] eqn:E1. cbn [fst snd] in H1.
    specialize (IH s1 _ Hls H1).
    destruct (run_machine step s1 ls) as [s2 o2]. cbn [fst snd] in *.
    now rewrite app_assoc.
Qed.

Lemma run_machine_app {S L O : Type} (step : S -> L -> S * list O) s l1 l2 :
  run_machine step s (l1 ++ l2) =
  (fst (run_machine step (fst (run_machine step s l1)) l2),
   snd (run_machine step s l1) ++
   snd (run_machine step (fst (run_machine step s l1)) l2)).
Proof.
  revert s. induction l1 as [|l l1 IH]; intros s; cbn [app run_machine].
  - cbn. now destruct (run_machine step s l2).
  - destruct (step s l) as [s1 o1]. rewrite IH.
    destruct (run_machine step s1 l1) as [s2 o2]. cbn [fst snd].
    now rewrite app_assoc.
Qed.
