(** C56, C93: the spell checker. *)
From Coq Require Import List Arith Bool Lia.
From Verif Require Import SpellModel SpellSpec SpellProofs.
Import ListNotations.
Local Open Scope nat_scope.

(** ** C56 *)
Theorem C56_distance s t : s <> [] -> t <> [] ->
  exists k, levenshtein s t = Some k /\ edit_distance s t k.
Proof.
  intros Hs Ht. exists (lev (rev s) (rev t)). split.
  - apply levenshtein_lev; [destruct s|destruct t]; try contradiction; discriminate.
  - apply distance_rev, lev_distance.
Qed.
Print Assumptions C56_distance.

Theorem C56_empty s t : s = [] \/ t = [] -> levenshtein s t = None.
Proof.
  intros [->| ->]; unfold levenshtein; cbn [length Nat.add].
  - reflexivity.
  - now rewrite orb_true_r.
Qed.
Print Assumptions C56_empty.

Example C56_example :      (* kitten / sitting *)
  levenshtein [10; 8; 19; 19; 4; 13] [18; 8; 19; 19; 8; 13; 6] = Some 3.
Proof. vm_compute. reflexivity. Qed.

(** ** C93: answers and suggestions *)
Theorem C93_answer tab s : fst (check tab s) = true <-> In s tab.
Proof.
  unfold check. destruct (existsb (str_eqb s) tab) eqn:E.
  - cbn. split; [|auto]. intros _. apply existsb_exists in E as (x & Hx & Ex).
    apply str_eqb_spec in Ex as <-. assumption.
  - destruct (fold_left (scan1 s) tab (max_val, [])). cbn [fst]. split; [discriminate|]. intros H.
    rewrite <- not_true_iff_false in E. destruct E. apply existsb_exists. exists s. split; [assumption|].
    now apply str_eqb_spec.
Qed.
Print Assumptions C93_answer.

(** Whatever the table and the name, no alternative is ever suggested. *)
Theorem C93_never_suggests tab s : ~ In s tab -> snd (check tab s) = [NoAlternatives].
Proof.
  intros H. unfold check. destruct (existsb (str_eqb s) tab) eqn:E.
  { apply existsb_exists in E as (x & Hx & Ex). apply str_eqb_spec in Ex as <-. contradiction. }
  assert (HF : forall keys, (forall k, In k keys -> k <> s) -> forall l, fst (fold_left (scan1 s) keys (max_val, l)) = max_val).
  { induction keys as [|k keys IH]; intros HK l; [reflexivity|]. cbn [fold_left].
    assert (HS : exists l', scan1 s (max_val, l) k = (max_val, l')).
    { unfold scan1. destruct (levenshtein k s) as [d|] eqn:EL; [|eauto].
      assert (HD : d <> 0).
      { intros ->. destruct k as [|a k]; [rewrite C56_empty in EL by auto; discriminate|].
        destruct s as [|b s]; [rewrite C56_empty in EL by auto; discriminate|].
        destruct (C56_distance (a :: k) (b :: s)) as (d & Hd & [He _]); try discriminate.
        rewrite EL in Hd. injection Hd as <-. inversion He as [x Hx Hy Hz|]; subst.
        apply (HK (b :: s)); [now left|reflexivity]. }
      unfold max_val. destruct (Nat.ltb_spec d 1); [lia|]. destruct (d =? 1); eauto. }
    destruct HS as (l' & ->). apply IH. intros x Hx. apply HK. now right. }
  specialize (HF tab).
  assert (HK : forall k, In k tab -> k <> s) by (intros k Hk ->; contradiction).
  specialize (HF HK []). destruct (fold_left (scan1 s) tab (max_val, [])) as [mv mk]. cbn [fst] in HF.
  rewrite HF, Nat.eqb_refl. reflexivity.
Qed.
Print Assumptions C93_never_suggests.

Example C93_example :
  check [[1; 2; 3]; [4; 5]] [4; 5] = (true, [])
  /\ check [[1; 2; 3]; [4; 5]] [1; 2; 2] = (false, [NoAlternatives])
  /\ levenshtein [1; 2; 3] [1; 2; 2] = Some 1.
Proof. repeat split; vm_compute; reflexivity. Qed.
