From Coq Require Import ZArith List Bool Arith String Ascii Lia.
From Verif Require Import Prelude CmdModel ScanModel ScanSpec.
Import ListNotations.
Local Open Scope Z_scope.
Local Open Scope list_scope.

(** ** Integers *)
Lemma within_iff a b c : within a b c = true <-> a <= code c <= b.
Proof. unfold within. rewrite andb_true_iff, !Z.leb_le. tauto. Qed.
Lemma is_iff c d : is c d = true <-> c = d.
Proof. unfold is. now rewrite Ascii.eqb_eq. Qed.
Lemma dval_iff base c d : base <= 99 -> dval base c = Some d <-> digit base c d.
Proof.
  intros B. unfold dval. split.
  - destruct (within 48 57 c) eqn:E1; [|destruct (within 97 102 c) eqn:E2; [|destruct (within 65 70 c) eqn:E3]]; rewrite ?within_iff in *;
      match goal with |- context [?x <? base] => destruct (Z.ltb_spec x base) end; intros [= <-]; try (constructor; lia). lia.
  - assert (W : forall a b, a <= code c <= b -> within a b c = true) by (intros; now apply within_iff).
    assert (W' : forall a b, ~ a <= code c <= b -> within a b c = false) by (intros a b H; destruct (within a b c) eqn:E; [now apply within_iff in E|reflexivity]).
    destruct 1 as [c0 H1 H2|c0 H1 H2|c0 H1 H2]; [rewrite (W 48 57) by lia|rewrite (W' 48 57), (W 97 102) by lia|rewrite (W' 48 57), (W' 97 102), (W 65 70) by lia];
      match goal with |- context [?x <? base] => destruct (Z.ltb_spec x base) end; auto; lia.
Qed.
Lemma dval_us base : base <= 99 -> dval base us = None.
Proof. intros B. unfold dval. change (within 48 57 us) with false. change (within 97 102 us) with false. change (within 65 70 us) with false. cbn iota zeta. destruct (Z.ltb_spec 99 base); [lia|reflexivity]. Qed.
Section Base.
Context (base : Z) (HB : base <= 99).
Lemma more_numeral s : forall s0 acc v, numeral base s0 acc -> more base acc s = Some v -> numeral base (s0 ++ s) v.
Proof.
  induction s as [s IH] using (induction_ltof1 _ (@List.length ascii)); unfold ltof in IH. intros s0 acc v N H. destruct s as [|c s]; cbn [more] in H.
  - injection H as <-. now rewrite app_nil_r.
  - destruct (dval base c) as [d|] eqn:E.
    + apply dval_iff in E; auto. replace (s0 ++ c :: s) with ((s0 ++ [c]) ++ s) by now rewrite <- app_assoc.
      apply (IH s) with (acc := acc * base + d); auto. now constructor.
    + destruct (is c us) eqn:EU; [|discriminate]. apply is_iff in EU. subst c. destruct s as [|c s]; [discriminate|].
      destruct (dval base c) as [d|] eqn:E2; [|discriminate]. apply dval_iff in E2; auto.
      replace (s0 ++ us :: c :: s) with ((s0 ++ ["_"%char; c]) ++ s) by now rewrite <- app_assoc.
      apply (IH s) with (acc := acc * base + d); auto; [cbn; lia|]. now constructor.
Qed.
Lemma numeral_more s v : numeral base s v -> forall t, digits base (s ++ t) = more base v t.
Proof.
  induction 1 as [c d D|s v c d N IH D|s v c d N IH D]; intros t; apply dval_iff in D; auto.
  - cbn. now rewrite D.
  - rewrite <- app_assoc, IH. cbn. now rewrite D.
  - rewrite <- app_assoc, IH. cbn [app more]. rewrite dval_us by auto. cbn [is]. change (is "_" us) with true. cbn iota. now rewrite D.
Qed.
Lemma digits_iff s v : digits base s = Some v <-> numeral base s v.
Proof.
  split.
  - destruct s as [|c s]; [discriminate|]. cbn. destruct (dval base c) as [d|] eqn:E; [|discriminate]. intros H. apply dval_iff in E; auto.
    change (c :: s) with ([c] ++ s). apply (more_numeral s [c] d); auto. now constructor.
  - intros N. pose proof (numeral_more s v N []) as H. now rewrite app_nil_r in H.
Qed.
Lemma digit_code c d : digit base c d -> 48 <= code c <= 57 \/ 97 <= code c <= 102 \/ 65 <= code c <= 70.
Proof. destruct 1; lia. Qed.
Lemma numeral_ends s v : numeral base s v -> exists c r d r', s = c :: r /\ s = r' ++ [d] /\ (exists x, digit base c x) /\ (exists x, digit base d x).
Proof.
  induction 1 as [c d D|s v c d N IH D|s v c d N IH D].
  - exists c, [], c, []. eauto 6.
  - destruct IH as (c0 & r & d0 & r' & E1 & E2 & D1 & D2). exists c0, (r ++ [c]), c, s. rewrite E1. eauto 6.
  - destruct IH as (c0 & r & d0 & r' & E1 & E2 & D1 & D2). exists c0, (r ++ ["_"%char; c]), c, (s ++ ["_"%char]). rewrite E1, <- app_assoc. cbn. eauto 6.
Qed.
Lemma space_iff c : space c = true <-> blank c.
Proof. unfold space, blank. rewrite orb_true_iff, !within_iff. tauto. Qed.
Lemma lstrip_split s : exists a, Forall blank a /\ s = a ++ lstrip s /\ match lstrip s with c :: _ => space c = false | [] => True end.
Proof.
  induction s as [|c s IH]; [exists []; repeat split; constructor|]. cbn [lstrip]. destruct (space c) eqn:E.
  - destruct IH as (a & A & H & H'). exists (c :: a). cbn [app]. rewrite <- H. split; auto. constructor; auto. now apply space_iff.
  - exists []. rewrite E. repeat split; constructor.
Qed.
Lemma strip_split s : exists a b, Forall blank a /\ Forall blank b /\ s = a ++ strip s ++ b.
Proof.
  destruct (lstrip_split s) as (a & A & E & _). destruct (lstrip_split (rev (lstrip s))) as (b & B & E2 & _).
  exists a, (rev b). split; [auto|]. split; [now apply Forall_rev|]. unfold strip. rewrite E at 1. f_equal.
  rewrite <- rev_app_distr, <- E2. now rewrite rev_involutive.
Qed.
Lemma lstrip_blank a s : Forall blank a -> match s with c :: _ => space c = false | [] => True end -> lstrip (a ++ s) = s.
Proof.
  induction 1 as [|c a H A IH]; intros E; cbn; [destruct s; [reflexivity|cbn; now rewrite E]|]. apply space_iff in H. rewrite H. auto.
Qed.
Lemma strip_mid a b c r d r' s : Forall blank a -> Forall blank b -> s = c :: r -> s = r' ++ [d] -> space c = false -> space d = false ->
  strip (a ++ s ++ b) = s.
Proof.
  intros A B E1 E2 C D. unfold strip. rewrite (lstrip_blank a) by (auto; rewrite E1; exact C).
  rewrite rev_app_distr, lstrip_blank; [now rewrite rev_involutive|now apply Forall_rev|]. rewrite E2, rev_app_distr. exact D.
Qed.
Lemma nonspace c : ~ blank c -> space c = false.
Proof. intros H. destruct (space c) eqn:E; auto. now apply space_iff in E. Qed.
Lemma signed_ends s v : signed base s v -> exists c r d r', s = c :: r /\ s = r' ++ [d] /\ space c = false /\ space d = false.
Proof.
  assert (Q : forall c x, digit base c x -> space c = false).
  { intros c x D. apply nonspace. apply digit_code in D. unfold blank. lia. }
  destruct 1 as [s v N|s v N|s v N]; destruct (numeral_ends s v N) as (c & r & d & r' & E1 & E2 & [x D1] & [y D2]).
  - exists c, r, d, r'. eauto 6.
  - exists "+"%char, s, d, ("+"%char :: r'). repeat split; eauto. cbn. now rewrite <- E2.
  - exists "-"%char, s, d, ("-"%char :: r'). repeat split; eauto. cbn. now rewrite <- E2.
Qed.
Lemma pyint_iff s v : pyint base s = Some v <-> integer base s v.
Proof.
  split.
  - intros H. destruct (strip_split s) as (a & b & A & B & E). exists a, b, (strip s). repeat split; auto. unfold pyint in H.
    destruct (strip s) as [|c r]; [discriminate|]. destruct (is c "-") eqn:E1; [|destruct (is c "+") eqn:E2]; rewrite ?is_iff in *; subst.
    + destruct (digits base r) as [w|] eqn:ED; [|discriminate]. injection H as <-. apply s_minus. now apply digits_iff.
    + apply s_plus. now apply digits_iff.
    + apply s_plain. now apply digits_iff.
  - intros (a & b & s' & A & B & -> & G). unfold pyint. destruct (signed_ends s' v G) as (c & r & d & r' & E1 & E2 & C & D).
    rewrite (strip_mid a b c r d r' s') by auto. destruct G as [s' v N|s' v N|s' v N];
      [|apply digits_iff in N; exact N|apply digits_iff in N; change (option_map Z.opp (digits base s') = Some (- v)); now rewrite N].
    rewrite E1. destruct (numeral_ends s' v N) as (c0 & r0 & _ & _ & E3 & _ & [x D1] & _). rewrite E1 in E3. injection E3 as <- <-.
    apply digit_code in D1. destruct (is c "-") eqn:F1; [apply is_iff in F1; subst c; change (code "-") with 45 in D1; lia|].
    destruct (is c "+") eqn:F2; [apply is_iff in F2; subst c; change (code "+") with 43 in D1; lia|]. rewrite <- E1. now apply digits_iff.
Qed.
End Base.

(** ** The scan *)
Lemma cls_iff k c : cls k c = true <-> taken k c.
Proof. unfold taken, between. destruct k; cbn [cls]; rewrite ?orb_true_iff, ?within_iff, is_iff; unfold us; tauto. Qed.
Lemma cls_not k c : cls k c = false <-> ~ taken k c.
Proof. rewrite <- cls_iff. destruct (cls k c); split; congruence || tauto. Qed.
Lemma taken_not_nl k : ~ taken k nl.
Proof. rewrite <- cls_not. destruct k; reflexivity. Qed.
Lemma forallb_taken k s : forallb (cls k) s = true <-> Forall (taken k) s.
Proof. rewrite forallb_forall, Forall_forall. split; intros H x I; apply cls_iff; auto. Qed.
Definition pre (k : kind) (acc : text) : Prop := acc = [] \/ k = KD /\ acc = ["-"%char].
Lemma taken_not_minus k : ~ taken k "-".
Proof. rewrite <- cls_not. destruct k; reflexivity. Qed.
Lemma text_eqb_iff a b : text_eqb a b = true <-> a = b.
Proof. unfold text_eqb. destruct (list_eq_dec ascii_dec a b); split; congruence. Qed.
Lemma text_eqb_neq a b : a <> b -> text_eqb a b = false.
Proof. intros H. destruct (text_eqb a b) eqn:E; auto. now apply text_eqb_iff in E. Qed.

(** Matching what was gathered since the lead. *)
Lemma full_ready k acc c s : pre k acc -> taken k c -> full k (acc ++ lead k ++ c :: s) = forallb (cls k) (c :: s).
Proof.
  intros [->|[-> ->]] T; [|reflexivity]. destruct k; try reflexivity. cbn [lead app full].
  destruct (is c "-") eqn:E; [apply is_iff in E; subst; now apply taken_not_minus in T|reflexivity].
Qed.
Lemma forallb_snoc {A} (f : A -> bool) l x : forallb f (l ++ [x]) = forallb f l && f x.
Proof. rewrite forallb_app. cbn. now rewrite andb_true_r. Qed.
Lemma matches_snoc k s c : matches k (s ++ [c]) = full k (s ++ [c]) || (is c nl && full k s).
Proof. unfold matches. rewrite rev_app_distr. cbn [rev app]. now rewrite rev_involutive. Qed.
Lemma matches_run k acc run c : pre k acc -> run <> [] -> Forall (taken k) run ->
  matches k ((acc ++ lead k ++ run) ++ [c]) = cls k c || is c nl.
Proof.
  intros P N T. destruct run as [|c0 run]; [congruence|]. rewrite matches_snoc, <- !app_assoc. inversion T as [|? ? T0 T1]; subst.
  cbn [app]. rewrite !full_ready by auto. change (c0 :: run ++ [c]) with ((c0 :: run) ++ [c]). rewrite forallb_snoc.
  assert (E : forallb (cls k) (c0 :: run) = true) by now apply forallb_taken. now rewrite E, !andb_true_r.
Qed.
Lemma matches_run_nl k acc run c : pre k acc -> run <> [] -> Forall (taken k) run ->
  matches k (((acc ++ lead k ++ run) ++ [nl]) ++ [c]) = false.
Proof.
  intros P N T. destruct run as [|c0 run]; [congruence|]. rewrite matches_snoc, <- !app_assoc. inversion T as [|? ? T0 T1]; subst.
  cbn [app]. rewrite !full_ready by auto. rewrite app_comm_cons, forallb_app. cbn [forallb].
  assert (E : cls k nl = false) by (apply cls_not, taken_not_nl).
  change (c0 :: run ++ [nl]) with ((c0 :: run) ++ [nl]). rewrite forallb_snoc, E. now rewrite !andb_false_r.
Qed.
Lemma matches_first k acc c : k <> KH -> pre k acc -> matches k (acc ++ [c]) = cls k c.
Proof.
  intros K P. rewrite matches_snoc. assert (F : full k acc = false) by (destruct P as [->|[-> ->]]; [destruct k|]; reflexivity).
  rewrite F, andb_false_r, orb_false_r. destruct (cls k c) eqn:E.
  - apply cls_iff in E. pose proof (full_ready k acc c [] P E) as H. replace (lead k) with (@nil ascii) in H by (destruct k; reflexivity || congruence). cbn [app] in H.
    rewrite H. cbn. apply cls_iff in E. now rewrite E.
  - destruct P as [->|[-> ->]]; cbn [app].
    + destruct k; cbn [full nonempty forallb]; rewrite ?E; try reflexivity; try congruence. now destruct (is c "-").
    + cbn [full is]. change (is "-" "-") with true. cbn [nonempty forallb]. now rewrite E.
Qed.
Lemma step_pass k acc c t ks res : k <> KH -> pre k acc -> ~ taken k c -> (k = KO -> c <> "o"%char) ->
  exists acc', pre k acc' /\ scan (c :: t) acc [] (k :: ks) res = scan t acc' [] (k :: ks) res.
Proof.
  intros K P T O. cbn [scan]. rewrite matches_first by auto. apply cls_not in T. rewrite T. cbn [nonempty].
  destruct ((Nat.leb (List.length (prefix k)) (List.length (acc ++ [c]))) && negb (text_eqb (acc ++ [c]) (prefix k))) eqn:E;
    [exists []; split; [now left|reflexivity]|]. exists (acc ++ [c]). split; [|reflexivity].
  apply andb_false_iff in E. destruct P as [->|[-> ->]]; cbn [app List.length] in *.
  - destruct E as [E|E]; [destruct k; discriminate || congruence|]. apply negb_false_iff, text_eqb_iff in E. destruct k; try discriminate.
    + injection E as ->. right. auto.
    + injection E as ->. now specialize (O eq_refl).
  - destruct E as [E|E]; [discriminate|]. apply negb_false_iff, text_eqb_iff in E. discriminate.
Qed.
Lemma ko_pair c t ks res : scan ("o"%char :: c :: t) [] [] (KO :: ks) res = scan t [] [] (KO :: ks) res.
Proof.
  cbn [scan app]. change (matches KO ["o"%char]) with false. cbn [nonempty]. change (Nat.leb (List.length (prefix KO)) (List.length ["o"%char])) with true.
  rewrite (proj2 (text_eqb_iff ["o"%char] (prefix KO)) eq_refl). cbn [andb negb app].
  assert (M : matches KO ["o"%char; c] = false).
  { change (matches KO (["o"%char] ++ [c]) = false). rewrite matches_snoc. change (full KO ["o"%char]) with false. now rewrite andb_false_r. }
  rewrite M. cbn [nonempty].
  rewrite text_eqb_neq by discriminate. reflexivity.
Qed.
Lemma kh_one a : matches KH [a] = false.
Proof. change (matches KH ([] ++ [a]) = false). rewrite matches_snoc. change (full KH []) with false. now rewrite andb_false_r. Qed.
Lemma kh_two a b : matches KH [a; b] = false.
Proof.
  change (matches KH ([a] ++ [b]) = false). rewrite matches_snoc. change (full KH [a]) with false. rewrite andb_false_r, orb_false_r.
  cbn [app full nonempty]. now rewrite andb_false_r.
Qed.
Lemma kh_pair a b t ks res : ~ (a = "0"%char /\ b = "x"%char) -> scan (a :: b :: t) [] [] (KH :: ks) res = scan t [] [] (KH :: ks) res.
Proof.
  intros N. cbn [scan app]. rewrite kh_one. cbn [nonempty].
  change (Nat.leb (List.length (prefix KH)) (List.length [a])) with false. cbn [andb app].
  rewrite kh_two. cbn [nonempty].
  rewrite text_eqb_neq by (intros [= -> ->]; auto). reflexivity.
Qed.
Lemma kh_0x t ks res : scan ("0"%char :: "x"%char :: t) [] [] (KH :: ks) res = scan t ["0"%char; "x"%char] [] (KH :: ks) res.
Proof. reflexivity. Qed.
Lemma kh_bad c t ks res : ~ taken KH c -> scan (c :: t) ["0"%char; "x"%char] [] (KH :: ks) res = scan t [] [] (KH :: ks) res.
Proof.
  intros N. cbn [scan app]. apply cls_not in N.
  assert (M : matches KH ["0"%char; "x"%char; c] = false). { change (matches KH (["0"%char; "x"%char] ++ [c]) = false). rewrite matches_snoc. change (full KH ["0"%char; "x"%char]) with false. rewrite andb_false_r, orb_false_r.
    cbn [app full nonempty forallb]. rewrite N. now rewrite andb_false_r. }
  rewrite M. cbn [nonempty]. rewrite text_eqb_neq by discriminate. reflexivity.
Qed.
Lemma passed_scan k p : passed k p -> forall acc t ks res, pre k acc ->
  exists acc', pre k acc' /\ scan (p ++ t) acc [] (k :: ks) res = scan t acc' [] (k :: ks) res.
Proof.
  induction 1 as [k|k c s K T H IH|c s T O H IH|c s H IH|a b s N H IH|c s T H IH]; intros acc t ks res P; cbn [app].
  - eauto.
  - destruct (step_pass k acc c (s ++ t) ks res) as (acc' & P' & E); auto; [intros ->; intuition discriminate|intros ->; intuition discriminate|].
    rewrite E. auto.
  - destruct (step_pass KO acc c (s ++ t) ks res) as (acc' & P' & E); auto; [discriminate|]. rewrite E. auto.
  - destruct P as [->|[? _]]; [|discriminate]. rewrite ko_pair. apply IH. now left.
  - destruct P as [->|[? _]]; [|discriminate]. rewrite kh_pair by auto. apply IH. now left.
  - destruct P as [->|[? _]]; [|discriminate]. rewrite kh_0x, kh_bad by auto. apply IH. now left.
Qed.
Lemma lead_scan k acc t ks res : pre k acc -> scan (lead k ++ t) acc [] (k :: ks) res = scan t (acc ++ lead k) [] (k :: ks) res.
Proof. intros P. destruct k; cbn [lead app]; rewrite ?app_nil_r; auto. destruct P as [->|[? _]]; [reflexivity|discriminate]. Qed.
Lemma run_scan k acc t ks res : pre k acc -> forall run done, Forall (taken k) (done ++ run) ->
  scan (run ++ t) (acc ++ lead k ++ done) done (k :: ks) res = scan t (acc ++ lead k ++ done ++ run) (done ++ run) (k :: ks) res.
Proof.
  intros P. induction run as [|c run IH]; intros done T; [now rewrite !app_nil_r|]. cbn [app scan].
  assert (M : matches k ((acc ++ lead k ++ done) ++ [c]) = true).
  { assert (TC : taken k c) by (rewrite Forall_forall in T; apply T, in_or_app; right; now left). destruct done as [|d done].
    - rewrite app_nil_r, matches_snoc, <- app_assoc, full_ready by auto. cbn. apply cls_iff in TC. now rewrite TC.
    - rewrite matches_run; auto; [apply cls_iff in TC; now rewrite TC|discriminate|]. apply Forall_app in T. tauto. }
  rewrite M. replace ((acc ++ lead k ++ done) ++ [c]) with (acc ++ lead k ++ done ++ [c]) by now rewrite <- !app_assoc.
  rewrite IH by (now rewrite <- app_assoc). now rewrite <- !app_assoc.
Qed.
Definition taken_value (k : kind) (w : text) (ks : list kind) (rest : text) (res : list val) : sres :=
  match conv k w with
  | None => ValueErr
  | Some v => match ks with [] => Vals (res ++ [v]) | _ => scan rest [] [] ks (res ++ [v]) end
  end.
Lemma run_neq (run m : text) : run <> [] -> nonempty (run ++ m) = true.
Proof. destruct run; cbn; congruence. Qed.
Lemma finish_value k w ks res : w <> [] -> finish w (k :: ks) res = taken_value k w ks [] res.
Proof. intros N. unfold finish, taken_value. destruct w; [congruence|]. destruct (conv k _); auto. destruct ks; auto. Qed.
Lemma after_scan k acc run e m rest ks res : pre k acc -> run <> [] -> Forall (taken k) run -> after k e m rest ->
  scan e (acc ++ lead k ++ run) run (k :: ks) res = taken_value k (run ++ m) ks rest res.
Proof.
  intros P N T A. destruct A as [| |c t|c t H1 H2].
  - rewrite app_nil_r. now apply finish_value.
  - cbn [scan]. rewrite matches_run by auto. change (is nl nl) with true. rewrite orb_true_r. apply finish_value. now destruct run.
  - cbn [scan]. rewrite matches_run by auto. change (is nl nl) with true. rewrite orb_true_r. rewrite matches_run_nl by auto.
    rewrite run_neq by auto. unfold taken_value. destruct (conv k _); auto; now destruct ks.
  - cbn [scan]. rewrite matches_run by auto. apply cls_not in H1. rewrite H1.
    assert (E : is c nl = false) by (destruct (is c nl) eqn:E; auto; now apply is_iff in E). rewrite E. cbn [orb].
    assert (R : nonempty run = true) by (destruct run; [congruence|reflexivity]). rewrite R, app_nil_r. unfold taken_value. destruct (conv k _); auto; now destruct ks.
Qed.
Lemma found_scan k t w rest ks res : found k t w rest -> scan t [] [] (k :: ks) res = taken_value k w ks rest res.
Proof.
  intros (p & run & e & m & P & N & T & A & -> & ->).
  destruct (passed_scan k p P [] (lead k ++ run ++ e) ks res) as (acc & PA & ->); [now left|]. rewrite lead_scan by auto.
  pose proof (run_scan k acc e ks res PA run [] T) as H. cbn [app] in H. rewrite app_nil_r in H. rewrite H. now apply after_scan.
Qed.
Lemma nothing_scan k t ks res : nothing k t -> scan t [] [] (k :: ks) res = Vals [].
Proof.
  intros (p & e & P & S & ->). destruct (passed_scan k p P [] e ks res) as (acc & PA & ->); [now left|].
  destruct S as [->|[[-> ->]|[-> [->|[c ->]]]]]; try reflexivity.
  - destruct PA as [->|[? _]]; [reflexivity|discriminate].
  - destruct PA as [->|[? _]]; [reflexivity|discriminate].
  - destruct PA as [->|[? _]]; [|discriminate]. cbn [scan app]. now rewrite kh_one.
Qed.
Lemma conv_means k w v : conv k w = Some v <-> means (k, w) v.
Proof.
  assert (Q : forall b, b <= 99 -> option_map VInt (pyint b w) = Some v <-> exists z, integer b w z /\ v = VInt z).
  { intros b B. split.
    - destruct (pyint b w) as [z|] eqn:E; [|discriminate]. intros [= <-]. exists z. split; auto. now apply pyint_iff.
    - intros (z & I & ->). apply pyint_iff in I; auto. now rewrite I. }
  split.
  - intros H. destruct k; cbn [conv] in H; try (apply Q in H; [|lia]; destruct H as (z & I & ->); constructor; [discriminate|exact I]). injection H as <-. constructor.
  - intros H. inversion H as [w'|k' w' z NK I]; subst; [reflexivity|]. destruct k; try congruence; cbn [conv base_of] in *; apply Q; try lia; eauto.
Qed.

(** ** Every text is read in some way *)
Lemma split_run k t : exists run e, t = run ++ e /\ Forall (taken k) run /\ match e with [] => True | c :: _ => ~ taken k c end.
Proof.
  induction t as [|c t (run & e & -> & T & E)]; [exists [], []; auto|]. destruct (cls k c) eqn:C.
  - exists (c :: run), e. repeat split; auto. constructor; auto. now apply cls_iff.
  - exists [], (c :: run ++ e). repeat split; auto. now apply cls_not.
Qed.
Lemma found_here k c t : taken k c -> exists w rest, found k (lead k ++ c :: t) w rest.
Proof.
  intros T. destruct (split_run k t) as (run & e & -> & R & E).
  assert (X : exists m rest, after k e m rest).
  { destruct e as [|d e]; [eexists; eexists; constructor|]. destruct (ascii_dec d nl) as [->|N].
    - destruct e; eexists; eexists; constructor.
    - eexists; eexists; constructor; auto. }
  destruct X as (m & rest & A). exists ((c :: run) ++ m), rest. exists [], (c :: run), e, m. repeat split; auto; [constructor|discriminate].
Qed.
Lemma one_more k u t : (forall p, passed k p -> passed k (u ++ p)) ->
  ((exists w rest, found k t w rest) \/ nothing k t) -> (exists w rest, found k (u ++ t) w rest) \/ nothing k (u ++ t).
Proof.
  intros U [(w & rest & p & run & e & m & P & H)|(p & e & P & S & ->)].
  - left. exists w, rest, (u ++ p), run, e, m. destruct H as (H1 & H2 & H3 & -> & H5). repeat split; auto. now rewrite <- app_assoc.
  - right. exists (u ++ p), e. repeat split; auto. now rewrite <- app_assoc.
Qed.
Lemma found_or_nothing k t : (exists w rest, found k t w rest) \/ nothing k t.
Proof.
  induction t as [t IH] using (induction_ltof1 _ (@List.length ascii)); unfold ltof in IH.
  destruct t as [|c t]; [right; exists [], []; repeat split; [constructor|now left]|].
  assert (L : forall u, (List.length u < List.length (c :: t))%nat -> (exists w rest, found k u w rest) \/ nothing k u) by auto. clear IH.
  destruct (cls k c) eqn:C.
  - destruct k; try (left; apply cls_iff in C; apply (found_here _ c t C)).
    (* %h *)
    destruct t as [|d t]; [right; exists [], [c]; repeat split; [constructor|]; right; right; split; auto; right; now exists c|].
    destruct (ascii_dec c "0") as [->|N0]; [destruct (ascii_dec d "x") as [->|N1]|].
    + destruct t as [|x t]; [right; exists [], ["0"%char; "x"%char]; repeat split; [constructor|]; right; right; auto|]. destruct (cls KH x) eqn:CX.
      * left. apply cls_iff in CX. apply (found_here KH x t CX).
      * apply (one_more KH ["0"%char; "x"%char; x] t); [|apply L; cbn; lia]. intros p P. apply p_0x; auto. now apply cls_not.
    + apply (one_more KH ["0"%char; d] t); [|apply L; cbn; lia]. intros p P. apply p_pair; auto. intros [_ ?]. congruence.
    + apply (one_more KH [c; d] t); [|apply L; cbn; lia]. intros p P. apply p_pair; auto. intros [? _]. congruence.
  - apply cls_not in C.
    assert (PL : k = KD \/ k = KB \/ k = KS -> (exists w rest, found k (c :: t) w rest) \/ nothing k (c :: t)).
    { intros K. apply (one_more k [c] t); [|apply L; cbn; lia]. intros p P. now apply p_plain. }
    destruct k; try (apply PL; tauto).
    + destruct t as [|d t]; [right; exists [], [c]; repeat split; [constructor|]; right; right; split; auto; right; now exists c|].
      apply (one_more KH [c; d] t); [|apply L; cbn; lia]. intros p P. apply p_pair; auto. intros [-> _]. apply C. now apply cls_iff.
    + destruct (ascii_dec c "o") as [->|NO].
      * destruct t as [|d t]; [right; exists [], ["o"%char]; repeat split; [constructor|]; right; left; auto|].
        apply (one_more KO ["o"%char; d] t); [|apply L; cbn; lia]. intros p P. now apply p_o.
      * apply (one_more KO [c] t); [|apply L; cbn; lia]. intros p P. now apply p_oct.
Qed.
Lemma reads_total ks : forall t, exists ws left, reads ks t ws left.
Proof.
  induction ks as [|k ks IH]; intros t; [exists [], []; constructor|].
  destruct (found_or_nothing k t) as [(w & rest & F)|N]; [|exists [], (k :: ks); now constructor].
  destruct (IH rest) as (ws & left & R). exists ((k, w) :: ws), left. now apply r_word with rest.
Qed.
Lemma reads_nil ks ws left : reads ks [] ws left -> ws = [] /\ left = ks.
Proof.
  intros R. inversion R as [|k ks' t w rest ws' left' F R'|]; subst; auto. exfalso.
  destruct F as (p & run & e & m & _ & N & _ & _ & E & _). apply N. symmetry in E. apply app_eq_nil in E as [_ E]. apply app_eq_nil in E as [_ E]. apply app_eq_nil in E. tauto.
Qed.
(** The result for a reading. *)
Lemma reads_scan ks t ws left : reads ks t ws left -> forall res, ks <> [] ->
  (exists vs, Forall2 means ws vs /\ scan t [] [] ks res = Vals (match left with [] => res ++ vs | _ => [] end)) \/
  (exists w, In w ws /\ (forall v, ~ means w v) /\ scan t [] [] ks res = ValueErr).
Proof.
  induction 1 as [t|k ks t w rest ws left F R IH|k ks t N]; intros res NE; [congruence| |].
  - rewrite (found_scan k t w rest ks res F). unfold taken_value. destruct (conv k w) as [v|] eqn:C.
    + apply conv_means in C. destruct ks as [|k' ks].
      * inversion R; subst. left. exists [v]. split; [constructor; auto|reflexivity].
      * destruct (IH (res ++ [v])) as [(vs & V & E)|(x & I & X & E)]; [discriminate| |].
        -- left. exists (v :: vs). split; [constructor; auto|]. rewrite E. destruct left; auto. now rewrite <- app_assoc.
        -- right. exists x. split; [now right|auto].
    + right. exists (k, w). split; [now left|]. split; auto. intros v M. apply conv_means in M. congruence.
  - left. exists []. split; [constructor|]. now apply nothing_scan.
Qed.
