(** C233: the texts of report actions. *)
From Coq Require Import ZArith List Bool String Ascii Lia.
From Verif Require Import FmtModel FmtSpec.
Import ListNotations.
Open Scope Z_scope.

Lemma on_bit a i : 0 <= i -> on a (2 ^ i) = Z.testbit a i.
Proof.
  intros Hi. unfold on. assert (E : Z.land a (2 ^ i) = if Z.testbit a i then 2 ^ i else 0).
  { apply Z.bits_inj'. intros j Hj. rewrite Z.land_spec, Z.pow2_bits_eqb by lia. destruct (Z.eqb_spec i j) as [->|N].
    - destruct (Z.testbit a j); [now rewrite Z.pow2_bits_true by lia|now rewrite Z.bits_0].
    - rewrite andb_false_r. destruct (Z.testbit a i); [now rewrite Z.pow2_bits_false by lia|now rewrite Z.bits_0]. }
  rewrite E. destruct (Z.testbit a i); [|reflexivity]. assert (0 < 2 ^ i) by (apply Z.pow_pos_nonneg; lia). destruct (Z.eqb_spec (2 ^ i) 0); [lia|reflexivity].
Qed.
(** The text from the bits *)
Lemma format_bits a : a <> 0 -> format_action a =
  String.concat "" (map (fun n => n ++ " ")%string (names_of a)).
Proof.
  intros N. unfold format_action, NO_ACTION. destruct (Z.eqb_spec a 0); [contradiction|].
  rewrite (on_bit a 0 ltac:(lia) : on a DISPLAY = _), (on_bit a 1 ltac:(lia) : on a LOG = _), (on_bit a 6 ltac:(lia) : on a RM_RECORD = _),
    (on_bit a 2 ltac:(lia) : on a COUNT = _), (on_bit a 4 ltac:(lia) : on a CALL_HOOK = _), (on_bit a 3 ltac:(lia) : on a EXIT = _), (on_bit a 5 ltac:(lia) : on a STOP = _).
  unfold names_of, names. cbn [filter snd].
  destruct (Z.testbit a 0), (Z.testbit a 1), (Z.testbit a 6), (Z.testbit a 2), (Z.testbit a 4), (Z.testbit a 3), (Z.testbit a 5); reflexivity.
Qed.
(** format_action() of a non-zero action is the names of its bits, in a fixed order, each followed by a blank. *)
Theorem C233_text a : format_action a =
  if a =? 0 then "UVM_NO_ACTION"%string else String.concat "" (map (fun n => n ++ " ")%string (names_of a)).
Proof. destruct (Z.eqb_spec a 0) as [->|N]; [reflexivity|]. now apply format_bits. Qed.
Print Assumptions C233_text.

(** Two actions have the same text exactly if both or none are zero and their seven bits agree. *)
Definition holds_name (n s : string) : bool := match index 0 n s with Some _ => true | None => false end.
Lemma text_bit a : a <> 0 -> forall n i, In (n, i) names -> holds_name (n ++ " ") (format_action a) = Z.testbit a i.
Proof.
  intros N n i H. rewrite format_bits by exact N. unfold names_of, names in *. cbn [filter snd].
  cbn [In] in H. repeat destruct H as [H|H]; try contradiction; injection H as <- <-;
    destruct (Z.testbit a 0), (Z.testbit a 1), (Z.testbit a 6), (Z.testbit a 2), (Z.testbit a 4), (Z.testbit a 3), (Z.testbit a 5); vm_compute; reflexivity.
Qed.
Lemma not_no_action a : a <> 0 -> format_action a <> "UVM_NO_ACTION"%string.
Proof.
  intros N. rewrite format_bits by exact N. unfold names_of, names. cbn [filter snd].
  destruct (Z.testbit a 0), (Z.testbit a 1), (Z.testbit a 6), (Z.testbit a 2), (Z.testbit a 4), (Z.testbit a 3), (Z.testbit a 5); vm_compute; discriminate.
Qed.
Lemma bit_name i : 0 <= i < 7 -> exists n, In (n, i) names.
Proof.
  intros H. assert (C : i = 0 \/ i = 1 \/ i = 2 \/ i = 3 \/ i = 4 \/ i = 5 \/ i = 6) by lia. unfold names.
  repeat destruct C as [C|C]; subst i; eexists; cbn [In]; eauto 10.
Qed.
Theorem C233_same a b : format_action a = format_action b <->
  (a = 0 <-> b = 0) /\ (forall i, 0 <= i < 7 -> Z.testbit a i = Z.testbit b i).
Proof.
  destruct (Z.eq_dec a 0) as [->|Na], (Z.eq_dec b 0) as [->|Nb].
  - split; [|reflexivity]. intros _. split; [tauto|reflexivity].
  - split; [|intros [H _]; now destruct Nb; apply H]. intros E. symmetry in E. now apply not_no_action in E.
  - split; [|intros [H _]; now destruct Na; apply H]. intros E. now apply not_no_action in E.
  - split.
    + intros E. split; [tauto|]. intros i Hi. destruct (bit_name i Hi) as [n Hn].
      rewrite <- (text_bit a Na n i Hn), <- (text_bit b Nb n i Hn). now rewrite E.
    + intros [_ H]. rewrite !format_bits by assumption. do 2 f_equal. unfold names_of, names. cbn [filter snd].
      now rewrite (H 0), (H 1), (H 2), (H 3), (H 4), (H 5), (H 6) by lia.
Qed.
Print Assumptions C233_same.

(** ** Reading *)
Lemma split_cons c s : exists w ws, split c s = w :: ws.
Proof.
  induction s as [|x s (w & ws & E)]; cbn [split]; [eauto|]. rewrite E. destruct (Ascii.eqb x c); eauto.
Qed.
Lemma split_word w : no_bar w -> split "|" w = [w].
Proof.
  induction w as [|x w IH]; cbn [no_bar split]; [reflexivity|]. intros [N H]. rewrite IH by exact H.
  apply Ascii.eqb_neq in N. now rewrite N.
Qed.
Lemma split_bar w s : no_bar w -> split "|" (w ++ "|" ++ s) = w :: split "|" s.
Proof.
  induction w as [|x w IH]; cbn [no_bar append].
  - intros _. cbn [split]. destruct (split_cons "|" s) as (v & vs & ->). reflexivity.
  - intros [N H]. cbn [split]. cbn [append] in IH. rewrite IH by exact H. apply Ascii.eqb_neq in N. now rewrite N.
Qed.
Lemma split_words ws : ws <> [] -> Forall no_bar ws -> split "|" (String.concat "|" ws) = ws.
Proof.
  induction ws as [|w ws IH]; [congruence|]. intros _ H. inversion H as [|? ? H1 H2]; subst. destruct ws as [|v ws].
  - now apply split_word.
  - cbn [String.concat]. rewrite split_bar by exact H1. f_equal. apply IH; [discriminate|exact H2].
Qed.
(** Every text is words joined with bars. *)
Theorem C233_words s : exists ws, words s ws.
Proof.
  induction s as [|x s (ws & N & F & E)].
  - exists [EmptyString]. split; [discriminate|]. split; [repeat constructor|reflexivity].
  - destruct ws as [|w ws]; [congruence|]. inversion F as [|? ? F1 F2]; subst. destruct (ascii_dec x "|"%char) as [->|NX].
    + exists (EmptyString :: w :: ws). split; [discriminate|]. split; [repeat constructor; assumption|]. reflexivity.
    + exists (String x w :: ws). split; [discriminate|]. split; [constructor; [split; assumption|exact F2]|]. destruct ws; reflexivity.
Qed.
Print Assumptions C233_words.

Lemma read1_bit a w i : 0 <= i -> Z.testbit (read1 a w) i = true <->
  Z.testbit a i = true \/ exists n, In (n, i) names /\ w = ("UVM_" ++ n)%string.
Proof.
  intros Hi.
  assert (G : (exists n, In (n, i) names /\ w = ("UVM_" ++ n)%string) <->
    (w = "UVM_DISPLAY"%string /\ i = 0) \/ (w = "UVM_LOG"%string /\ i = 1) \/ (w = "UVM_COUNT"%string /\ i = 2) \/ (w = "UVM_EXIT"%string /\ i = 3) \/
    (w = "UVM_CALL_HOOK"%string /\ i = 4) \/ (w = "UVM_STOP"%string /\ i = 5) \/ (w = "UVM_RM_RECORD"%string /\ i = 6)).
  { split.
    - intros (n & H & ->). unfold names in H. cbn [In] in H. repeat destruct H as [H|H]; try contradiction; injection H as <- <-; cbn [append]; tauto.
    - intros H. unfold names. repeat destruct H as [H|H]; destruct H as [-> ->];
        [exists "DISPLAY"%string|exists "LOG"%string|exists "COUNT"%string|exists "EXIT"%string|exists "CALL_HOOK"%string|exists "STOP"%string|exists "RM_RECORD"%string];
        (split; [cbn [In]; tauto|reflexivity]). }
  rewrite G. clear G.
  assert (B : forall k, 0 <= k -> Z.testbit (Z.lor a (2 ^ k)) i = true <-> Z.testbit a i = true \/ i = k).
  { intros k Hk. rewrite Z.lor_spec, orb_true_iff, Z.pow2_bits_eqb, Z.eqb_eq by lia. intuition congruence. }
  pose proof (B 0 ltac:(lia) : Z.testbit (Z.lor a DISPLAY) i = true <-> _) as B0.
  pose proof (B 1 ltac:(lia) : Z.testbit (Z.lor a LOG) i = true <-> _) as B1.
  pose proof (B 2 ltac:(lia) : Z.testbit (Z.lor a COUNT) i = true <-> _) as B2.
  pose proof (B 3 ltac:(lia) : Z.testbit (Z.lor a EXIT) i = true <-> _) as B3.
  pose proof (B 4 ltac:(lia) : Z.testbit (Z.lor a CALL_HOOK) i = true <-> _) as B4.
  pose proof (B 5 ltac:(lia) : Z.testbit (Z.lor a STOP) i = true <-> _) as B5.
  pose proof (B 6 ltac:(lia) : Z.testbit (Z.lor a RM_RECORD) i = true <-> _) as B6. clear B.
  unfold read1.
  destruct (String.eqb_spec w "UVM_NO_ACTION"); [subst w; cbn [String.eqb Ascii.eqb Bool.eqb]; unfold NO_ACTION; rewrite Z.lor_0_r; clear; intuition discriminate|].
  destruct (String.eqb_spec w "UVM_DISPLAY"); [subst w; cbn [String.eqb Ascii.eqb Bool.eqb]; rewrite B0; clear; intuition discriminate|].
  destruct (String.eqb_spec w "UVM_LOG"); [subst w; cbn [String.eqb Ascii.eqb Bool.eqb]; rewrite B1; clear; intuition discriminate|].
  destruct (String.eqb_spec w "UVM_COUNT"); [subst w; cbn [String.eqb Ascii.eqb Bool.eqb]; rewrite B2; clear; intuition discriminate|].
  destruct (String.eqb_spec w "UVM_EXIT"); [subst w; cbn [String.eqb Ascii.eqb Bool.eqb]; rewrite B3; clear; intuition discriminate|].
  destruct (String.eqb_spec w "UVM_CALL_HOOK"); [subst w; cbn [String.eqb Ascii.eqb Bool.eqb]; rewrite B4; clear; intuition discriminate|].
  destruct (String.eqb_spec w "UVM_STOP"); [subst w; cbn [String.eqb Ascii.eqb Bool.eqb]; rewrite B5; clear; intuition discriminate|].
  destruct (String.eqb_spec w "UVM_RM_RECORD"); [subst w; cbn [String.eqb Ascii.eqb Bool.eqb]; rewrite B6; clear; intuition discriminate|].
  clear B0 B1 B2 B3 B4 B5 B6. tauto.
Qed.
(** uvm_string_to_action() sets exactly the bits whose names, with UVM_, are among the words. *)
Theorem C233_read s ws i : words s ws -> 0 <= i ->
  (Z.testbit (string_to_action s) i = true <-> exists n, In (n, i) names /\ In ("UVM_" ++ n)%string ws).
Proof.
  intros (N & F & <-) Hi. unfold string_to_action. rewrite split_words by assumption. clear N F.
  assert (G : forall ws a, Z.testbit (fold_left read1 ws a) i = true <->
    Z.testbit a i = true \/ exists n, In (n, i) names /\ In ("UVM_" ++ n)%string ws).
  { induction ws0 as [|w ws0 IH]; intros a; cbn [fold_left].
    - split; [auto|]. intros [H|(n & _ & [])]. exact H.
    - rewrite IH, read1_bit by exact Hi. split.
      + intros [[H|(n & H & ->)]|(n & H & I)]; [auto|right; exists n; split; [exact H|now left]|right; exists n; split; [exact H|now right]].
      + intros [H|(n & H & [I|I])]; [auto|left; right; eauto|right; eauto]. }
  rewrite G, Z.bits_0. intuition discriminate.
Qed.
Print Assumptions C233_read.
(** The names of the bits of an action, with UVM_ and joined with bars, are read as its seven bits. *)
Theorem C233_round_trip a : string_to_action (String.concat "|" (map (append "UVM_") (names_of a))) = a mod 2 ^ 7.
Proof.
  assert (P : forall b, 0 <= b -> (forall i, 0 <= i < 7 -> Z.testbit b i = Z.testbit a i) -> b < 2 ^ 7 -> b = a mod 2 ^ 7).
  { intros b H0 H H7. rewrite <- (Z.mod_small b (2 ^ 7)) by lia. apply Z.bits_inj'. intros i Hi. destruct (Z.lt_ge_cases i 7).
    - rewrite !Z.mod_pow2_bits_low by lia. apply H. lia.
    - now rewrite !Z.mod_pow2_bits_high by lia. }
  assert (Q : forall b, Z.testbit b 0 = Z.testbit a 0 /\ Z.testbit b 1 = Z.testbit a 1 /\ Z.testbit b 2 = Z.testbit a 2 /\ Z.testbit b 3 = Z.testbit a 3 /\
    Z.testbit b 4 = Z.testbit a 4 /\ Z.testbit b 5 = Z.testbit a 5 /\ Z.testbit b 6 = Z.testbit a 6 -> 0 <= b < 2 ^ 7 -> b = a mod 2 ^ 7).
  { intros b H B. apply P; [lia| |lia]. intros i Hi. assert (C : i = 0 \/ i = 1 \/ i = 2 \/ i = 3 \/ i = 4 \/ i = 5 \/ i = 6) by lia.
    repeat destruct C as [C|C]; subst i; tauto. }
  apply Q; unfold names_of, names; cbn [filter snd];
  destruct (Z.testbit a 0), (Z.testbit a 1), (Z.testbit a 6), (Z.testbit a 2), (Z.testbit a 4), (Z.testbit a 3), (Z.testbit a 5); vm_compute;
  repeat split; discriminate || reflexivity.
Qed.
Print Assumptions C233_round_trip.
(** But the text of format_action() itself names no action. *)
Theorem C233_not_readable a : string_to_action (format_action a) = 0.
Proof.
  destruct (Z.eq_dec a 0) as [->|N]; [reflexivity|]. rewrite format_bits by exact N. unfold names_of, names. cbn [filter snd].
  destruct (Z.testbit a 0), (Z.testbit a 1), (Z.testbit a 6), (Z.testbit a 2), (Z.testbit a 4), (Z.testbit a 3), (Z.testbit a 5); vm_compute; reflexivity.
Qed.
Print Assumptions C233_not_readable.

Example C233_example :
  format_action 69 = "DISPLAY RM_RECORD COUNT "%string /\ format_action 128 = EmptyString /\ format_action (-1) = format_action 127 /\
  words "UVM_EXIT|x|UVM_LOG|UVM_EXIT" ["UVM_EXIT"; "x"; "UVM_LOG"; "UVM_EXIT"]%string /\
  string_to_action "UVM_EXIT|x|UVM_LOG|UVM_EXIT" = 10 /\ string_to_action "UVM_LOG | UVM_EXIT" = 0.
Proof.
  repeat split; try reflexivity; [discriminate|]. repeat (apply Forall_cons; [cbn; repeat split; discriminate|]). apply Forall_nil.
Qed.
