From Coq Require Import List Bool Arith ZArith String Ascii Lia Permutation Sorted.
From Verif Require Import Prelude CmdModel CmdSpec.
Import ListNotations.
Local Open Scope string_scope.
Local Open Scope list_scope.

(** ** Strings *)
Lemma prefix_app : forall m a, String.prefix m a = true <-> exists v, a = (m ++ v)%string.
Proof.
  induction m as [|c m IH]; intros a; cbn.
  - split; [intros _; exists a; reflexivity|intros _; destruct a; reflexivity].
  - destruct a as [|d a]; [split; [discriminate|intros [v E]; discriminate]|].
    cbn [String.prefix]. destruct (ascii_dec c d) as [->|N].
    + split.
      * intros H. apply IH in H as [v ->]. now exists v.
      * intros [v E]. injection E as E. apply IH. now exists v.
    + split; [discriminate|]. intros [v E]. injection E as E _. congruence.
Qed.
Lemma drop_app : forall m v, drop (String.length m) (m ++ v) = v.
Proof. induction m; cbn; auto. Qed.
Lemma append_inj : forall m v w, (m ++ v)%string = (m ++ w)%string -> v = w.
Proof. intros m v w E. rewrite <- (drop_app m v), E. apply drop_app. Qed.
Lemma Selects_values : forall m argv, Selects (ValueOf m) argv (get_arg_values argv m).
Proof.
  intros m argv. induction argv as [|a l IH]; cbn; [constructor|].
  destruct (starts m a) eqn:E; cbn.
  - apply prefix_app in E as [v ->]. rewrite drop_app. now constructor.
  - apply sel_miss; auto. intros v ->. unfold starts in E.
    rewrite (proj2 (prefix_app m (m ++ v))) in E by eauto. discriminate.
Qed.
Lemma Selects_det : forall A B (R : A -> B -> Prop), (forall x y z, R x y -> R x z -> y = z) ->
  forall xs ys zs, Selects R xs ys -> Selects R xs zs -> ys = zs.
Proof.
  intros A B R D xs ys zs H. revert zs. induction H; intros zs Z; inversion Z; subst;
    try (exfalso; match goal with N : forall y, ~ _ |- _ => eapply N; eassumption end).
  - reflexivity.
  - f_equal; eauto.
  - eauto.
Qed.
Lemma get_arg_value_eq : forall m argv, get_arg_value argv m = (List.length (get_arg_values argv m), firstn 1 (get_arg_values argv m)).
Proof.
  intros m argv. unfold get_arg_value.
  enough (H : forall n v, fold_left (fun '(n, v) a => if starts m a then (S n, if Nat.eqb n 0 then v ++ [drop (String.length m) a] else v) else (n, v)) argv (n, v)
            = ((n + List.length (get_arg_values argv m))%nat, if Nat.eqb n 0 then v ++ firstn 1 (get_arg_values argv m) else v)).
  { now rewrite H. }
  induction argv as [|a l IH]; intros n v; cbn.
  - rewrite Nat.add_0_r. destruct (Nat.eqb n 0); now rewrite ?app_nil_r.
  - destruct (starts m a); rewrite IH; cbn; [|reflexivity].
    unfold get_arg_values. f_equal. lia.
Qed.
Lemma Selects_filter : forall A (f : A -> bool) l, Selects (fun x y => y = x /\ f x = true) l (filter f l).
Proof.
  induction l as [|x l IH]; cbn; [constructor|]. destruct (f x) eqn:E.
  - constructor; auto.
  - apply sel_miss; auto. intros y [_ H]. congruence.
Qed.
Lemma substring_all : forall s, substring 0 (String.length s) s = s.
Proof. induction s; cbn; congruence. Qed.
Lemma substring_app : forall p s, substring 0 (String.length p) (p ++ s) = p.
Proof. induction p; intros s; cbn; [now destruct s|]. now rewrite IHp. Qed.
Lemma substring_last : forall p c, substring (String.length p) 1 (p ++ String c "") = String c "".
Proof. induction p; intros c; cbn; auto. Qed.
Lemma length_app_str : forall a b, String.length (a ++ b) = (String.length a + String.length b)%nat.
Proof. induction a; cbn; auto. Qed.
Lemma regex_shape : forall p c, let m := ("/" ++ p ++ String c "/")%string in
  is_regex m = true /\ substring 1 (String.length m - 3) m = p.
Proof.
  intros p c m. assert (L : String.length m = (3 + String.length p)%nat).
  { unfold m. cbn. rewrite length_app_str. cbn. lia. }
  split.
  - unfold is_regex. rewrite L. apply andb_true_iff; split; [apply andb_true_iff; split|].
    + apply Nat.ltb_lt. lia.
    + unfold m. cbn. now destruct (p ++ String c "/")%string.
    + apply String.eqb_eq. unfold m. replace (3 + String.length p - 1)%nat with (S (S (String.length p))) by lia.
      cbn. assert (E : (p ++ String c "/")%string = ((p ++ String c "") ++ "/")%string).
      { clear. induction p; cbn; congruence. }
      rewrite E. replace (S (String.length p)) with (String.length (p ++ String c "")) by (rewrite length_app_str; cbn; lia).
      apply substring_last.
  - rewrite L. unfold m. replace (3 + String.length p - 3)%nat with (String.length p) by lia. cbn. apply substring_app.
Qed.
(** every pattern taken as a regular expression has this shape *)
Lemma last_char : forall s, (0 < String.length s)%nat -> exists p c, s = (p ++ String c "")%string.
Proof.
  induction s as [|c s IH]; cbn; [lia|]. intros _. destruct s as [|d s].
  - exists "", c. reflexivity.
  - destruct IH as (p & e & E); [cbn; lia|]. rewrite E. exists (String c p), e. reflexivity.
Qed.
Lemma regex_inv : forall m, is_regex m = true -> exists p c, m = ("/" ++ p ++ String c "/")%string.
Proof.
  intros m H. unfold is_regex in H. apply andb_true_iff in H as [H H3]. apply andb_true_iff in H as [H1 H2].
  apply Nat.ltb_lt in H1. apply String.eqb_eq in H2, H3.
  destruct m as [|a m]; [cbn in H1; lia|]. cbn in H2. assert (a = "/"%char) as ->. { destruct m; cbn in H2; congruence. }
  destruct (last_char m) as (q & e & ->); [cbn in H1; lia|].
  cbn in H3. rewrite length_app_str in H3. cbn [String.length] in H3.
  replace (String.length q + 1 - 0)%nat with (S (String.length q)) in H3 by lia. cbn in H3. rewrite substring_last in H3. injection H3 as ->.
  destruct (last_char q) as (p & c & ->). { cbn in H1. rewrite length_app_str in H1. cbn in H1. lia. }
  exists p, c. cbn. f_equal. clear. induction p; cbn; congruence.
Qed.

(** ** Fields *)
Lemma split_cons : forall c s, split c s <> [].
Proof. intros c s. destruct s; cbn; [discriminate|]. destruct (Ascii.eqb _ _); [discriminate|]. destruct (split c s); discriminate. Qed.
Lemma split_lacks : forall c f, lacks c f -> split c f = [f].
Proof.
  induction f as [|x f IH]; cbn; [reflexivity|]. intros [N L]. rewrite (proj2 (Ascii.eqb_neq x c) N). now rewrite IH.
Qed.
Lemma split_sep : forall c f s, lacks c f -> split c (f ++ String c s) = f :: split c s.
Proof.
  induction f as [|x f IH]; intros s L; cbn.
  - now rewrite Ascii.eqb_refl.
  - destruct L as [N L]. rewrite (proj2 (Ascii.eqb_neq x c) N). now rewrite IH.
Qed.
Lemma split_join : forall c fs, fs <> [] -> Forall (lacks c) fs -> split c (join (String c "") fs) = fs.
Proof.
  induction fs as [|f fs IH]; intros N F; [contradiction|]. inversion F; subst. destruct fs as [|g fs].
  - cbn. now apply split_lacks.
  - transitivity (f :: split c (join (String c "") (g :: fs))); [apply (split_sep c f (join (String c "") (g :: fs))); assumption|]. f_equal. apply IH; [discriminate|assumption].
Qed.
Lemma split_line : forall fs, Fields fs -> split comma (line fs) = fs.
Proof. intros fs [N F]. now apply split_join. Qed.
(** every string is a line of fields *)
Lemma join_split : forall c s, join (String c "") (split c s) = s /\ Forall (lacks c) (split c s).
Proof.
  intros c s. induction s as [|x s [IH F]]; [split; cbn; repeat constructor|].
  cbn. destruct (Ascii.eqb x c) eqn:E.
  - apply Ascii.eqb_eq in E as ->. split; [|constructor; cbn; auto].
    pose proof (split_cons c s). destruct (split c s) as [|g gs] eqn:G; [contradiction|].
    change (join (String c "") ("" :: g :: gs)) with (String c (join (String c "") (g :: gs))). now rewrite IH.
  - apply Ascii.eqb_neq in E. pose proof (split_cons c s). destruct (split c s) as [|g gs]; [contradiction|].
    apply Forall_cons_iff in F as [F1 F2]. split.
    + transitivity (String x (join (String c "") (g :: gs))); [destruct gs; reflexivity|now rewrite IH].
    + constructor; [cbn; auto|assumption].
Qed.
Lemma line_split : forall v, exists fs, Fields fs /\ v = line fs.
Proof.
  intros v. exists (split comma v). destruct (join_split comma v) as [E F]. split; [split|]; auto.
  apply split_cons.
Qed.

(** ** Codes *)
Local Open Scope Z_scope.
Ltac word s := match goal with |- context [String.eqb s ?w] => destruct (String.eqb_spec s w) as [->|?] end.
Lemma sev_code_spec : forall s, SevCode s (sev_code s).
Proof.
  intros s. unfold SevCode, SevName, sev_code.
  repeat (word s; [left; tauto|]).
  right. split; [reflexivity|]. intros z'. tauto.
Qed.
Lemma SevName_range : forall s z, SevName s z -> 0 <= z <= 3.
Proof. unfold SevName. intros s z. intuition (subst; lia). Qed.
Lemma SevName_det : forall s z z', SevName s z -> SevName s z' -> z = z'.
Proof. unfold SevName. intros s z z' H H'. intuition (subst; try reflexivity; congruence). Qed.
Lemma SevCode_det : forall s z z', SevCode s z -> SevCode s z' -> z = z'.
Proof.
  intros s z z' [H|[-> N]] [H'|[-> N']]; auto.
  - eapply SevName_det; eauto.
  - exfalso. eapply N'; eauto.
  - exfalso. eapply N; eauto.
Qed.
Lemma sev_code_info : forall s, sev_code s = 0 <-> s = "UVM_INFO".
Proof.
  intros s. unfold sev_code. repeat (word s; [split; (reflexivity || discriminate)|]).
  split; [discriminate|contradiction].
Qed.
Lemma sev_code_bad : forall s, sev_code s = -1 <-> forall z, ~ SevName s z.
Proof.
  intros s. destruct (sev_code_spec s) as [H|[E N]].
  - pose proof (SevName_range _ _ H). split; [lia|]. intros N. exfalso. eapply N; eauto.
  - split; auto.
Qed.
Lemma sev_code_good : forall s, sev_code s <> -1 -> SevName s (sev_code s).
Proof. intros s N. destruct (sev_code_spec s) as [H|[E _]]; [assumption|contradiction]. Qed.

Lemma one_action_bit : forall w i, Z.testbit (one_action w) (Z.of_nat i) = true <-> nth_error action_names i = Some w.
Proof.
  intros w i. unfold one_action.
  destruct (le_lt_dec 7 i) as [G|G].
  - assert (nth_error action_names i = None) as -> by (apply nth_error_None; exact G).
    split; [|discriminate]. intros T.
    repeat destruct (String.eqb _ _);
      (rewrite Z.bits_above_log2 in T; [discriminate|lia|]; cbn; lia) || (rewrite Z.bits_0 in T; discriminate).
  - destruct i as [|[|[|[|[|[|[|i]]]]]]]; [..|lia]; cbn [nth_error action_names];
      repeat (word w; [split; (reflexivity || discriminate)|]);
      (split; [intros T; rewrite Z.bits_0 in T; discriminate|congruence]).
Qed.
Lemma one_action_nonneg : forall w, 0 <= one_action w.
Proof. intros w. unfold one_action. repeat destruct (String.eqb _ _); lia. Qed.
Lemma fold_actions : forall ws a, 0 <= a ->
  let r := fold_left (fun a x => Z.lor a (one_action x)) ws a in
  0 <= r /\ forall i, Z.testbit r (Z.of_nat i) = true <-> Z.testbit a (Z.of_nat i) = true \/ exists n, nth_error action_names i = Some n /\ In n ws.
Proof.
  induction ws as [|w ws IH]; intros a A; cbn.
  - split; [assumption|]. intros i. split; [auto|]. intros [H|(n & _ & [])]. assumption.
  - destruct (IH (Z.lor a (one_action w))) as [P Q]. { apply Z.lor_nonneg. split; [assumption|apply one_action_nonneg]. }
    split; [exact P|]. intros i. rewrite Q, Z.lor_spec, orb_true_iff, one_action_bit. split.
    + intros [[H|H]|(n & E & I)]; [auto|right; eauto|right; eauto].
    + intros [H|(n & E & [<-|I])]; [auto|auto|right; eauto].
Qed.
Lemma action_code_spec : forall s, ActCode s (action_code s).
Proof.
  intros s. exists (split bar s). destruct (join_split bar s) as [E F].
  split; [apply split_cons|split; [exact F|split; [now symmetry|]]].
  destruct (fold_actions (split bar s) 0 (Z.le_refl 0)) as [P Q]. split; [exact P|].
  intros i. rewrite (Q i), Z.bits_0. split; [intros [H|H]; [discriminate|assumption]|auto].
Qed.
Lemma ActCode_det : forall s a b, ActCode s a -> ActCode s b -> a = b.
Proof.
  intros s a b (ws & N & F & -> & A & HA) (ws' & N' & F' & E & B & HB).
  assert (ws' = ws) as ->. { rewrite <- (split_join "|" ws' N' F'). change (String "|" "") with "|". rewrite <- E. now apply split_join. }
  apply Z.bits_inj'. intros n G. rewrite <- (Z2Nat.id n) by assumption.
  apply eq_true_iff_eq. now rewrite HA, HB.
Qed.

Section S.
Context (is_match : string -> string -> bool).
(** ** Actions *)
Lemma apply_action_tells : forall name c i s t rest,
  action_code t <> 0 -> s <> "UVM_INFO" -> ActTells is_match name (c :: i :: s :: t :: rest) (apply_action is_match name (c :: i :: s :: t :: rest)).
Proof.
  intros name c i s t rest A I. unfold apply_action. cbn [fld nth].
  destruct (is_match c name) eqn:M; cbn [negb]; [|now apply at_other].
  assert (V : sev_code s <> 0) by (rewrite sev_code_info; assumption).
  destruct (String.eqb_spec i "_ALL_") as [->|Hi]; destruct (String.eqb_spec s "_ALL_") as [->|Hs].
  - apply at_all_all; auto using action_code_spec.
  - apply at_all_sev; auto using action_code_spec, sev_code_spec.
  - apply at_id_all; auto using action_code_spec.
  - apply at_id_sev; auto using action_code_spec, sev_code_spec.
Qed.
(** each setting's contribution, when none is too short *)
Lemma parse_actions_tells : forall name fss, Forall Fields fss -> (forall fs, In fs fss -> ~ ActShort fs) ->
  exists l tss, parse_actions (map line fss) = Some l /\ Forall2 (ActTells is_match name) fss tss /\ flat_map (apply_action is_match name) l = List.concat tss.
Proof.
  intros name fss. induction fss as [|fs fss IH]; intros F NS; [exists [], []; repeat constructor|].
  inversion F as [|? ? Ff Fr]; subst. destruct IH as (l & tss & P & T & C); [assumption|intros; apply NS; now right|].
  assert (N := NS fs (or_introl eq_refl)). unfold ActShort in N.
  destruct fs as [|c [|i [|s r]]]; try (exfalso; apply N; left; cbn; lia).
  destruct r as [|t r].
  - destruct (String.eqb_spec s "UVM_INFO") as [->|Hs]; [|exfalso; apply N; right; eauto].
    exists l, ([] :: tss). cbn [map parse_actions]. rewrite split_line by assumption.
    repeat split; [exact P|constructor; [apply at_info|assumption]|exact C].
  - cbn [map parse_actions]. rewrite split_line by assumption. cbn [List.length Nat.leb fld nth].
    destruct (String.eqb_spec s "UVM_INFO") as [->|Hs].
    + exists l, ([] :: tss). repeat split; [exact P|constructor; [apply at_info|assumption]|exact C].
    + replace (sev_code s =? 0) with false by (symmetry; apply Z.eqb_neq; rewrite sev_code_info; assumption).
      rewrite andb_false_r. destruct (Z.eqb_spec (action_code t) 0) as [A|A].
      * exists l, ([] :: tss). repeat split; [exact P|constructor; [|assumption]|exact C].
        apply at_no_action. rewrite <- A. apply action_code_spec.
      * rewrite P. exists ((c :: i :: s :: t :: r) :: l), (apply_action is_match name (c :: i :: s :: t :: r) :: tss).
        repeat split; [constructor; [now apply apply_action_tells|assumption]|cbn [flat_map List.concat]; now rewrite C].
Qed.
Lemma parse_actions_short : forall fss fs, Forall Fields fss -> In fs fss -> ActShort fs -> parse_actions (map line fss) = None.
Proof.
  induction fss as [|gs fss IH]; intros fs F I SH; [contradiction|]. inversion F; subst.
  cbn [map parse_actions]. rewrite split_line by assumption. destruct I as [->|I].
  - destruct SH as [SH|(c & i & s & -> & Hs)].
    + rewrite (proj2 (Nat.leb_le _ _)) by lia. reflexivity.
    + cbn [List.length Nat.leb fld nth]. replace (sev_code s =? 0) with false by (symmetry; apply Z.eqb_neq; rewrite sev_code_info; assumption).
      now rewrite andb_false_r.
  - rewrite (IH fs) by assumption. repeat destruct (_ : bool); reflexivity.
Qed.

(** ** Severities *)
Lemma parse_sevs_tells : forall name fss, Forall Fields fss ->
  exists tss, Forall2 (SevTells is_match name) fss tss /\ set_cl_sev is_match (map line fss) name = List.concat tss.
Proof.
  intros name fss. unfold set_cl_sev. induction fss as [|fs fss IH]; intros F; [exists []; repeat constructor|].
  inversion F; subst. destruct IH as (tss & T & C); [assumption|].
  cbn [map parse_sevs]. rewrite split_line by assumption.
  destruct (Nat.eqb_spec (List.length fs) 4) as [E|E]; cbn [negb].
  2: { exists ([] :: tss). split; [constructor; [now apply st_fields|assumption]|exact C]. }
  destruct fs as [|c [|i [|s [|n [|]]]]]; try discriminate. cbn [fld nth].
  destruct (String.eqb_spec s "UVM_INFO") as [->|Hs].
  { exists ([] :: tss). split; [constructor; [apply st_info|assumption]|exact C]. }
  replace (sev_code s =? 0) with false by (symmetry; apply Z.eqb_neq; rewrite sev_code_info; assumption).
  rewrite andb_false_r. destruct (Z.eqb_spec (sev_code n) (-1)) as [B|B].
  { exists ([] :: tss). split; [constructor; [apply st_new; now apply sev_code_bad|assumption]|exact C]. }
  exists (apply_sev is_match name [c; i; s; n] :: tss). split; [|cbn [flat_map List.concat]; now rewrite C].
  constructor; [|assumption]. unfold apply_sev. cbn [fld nth].
  assert (V : sev_code s <> 0) by (rewrite sev_code_info; assumption). apply sev_code_good in B.
  destruct (is_match c name) eqn:M; cbn [negb]; [|now apply st_other].
  destruct (String.eqb_spec i "_ALL_") as [->|Hi]; destruct (String.eqb_spec s "_ALL_") as [->|Hs2].
  - now apply st_all_all.
  - apply st_all_sev; auto using sev_code_spec.
  - now apply st_id_all.
  - apply st_id_sev; auto using sev_code_spec.
Qed.

(** ** Verbosity *)
Context (to_int : string -> option Z).
Lemma VLevel_nonneg : forall v z, VLevel v z -> 0 <= z.
Proof. intros v z (w & k & _ & -> & _). lia. Qed.
Lemma convert_verb_level : forall v z, VLevel v z -> convert_verb v = z.
Proof.
  intros v z (w & k & E & -> & D).
  destruct k as [|[|[|[|[|[|k]]]]]]; cbn in E; try (injection E as <-; destruct D as [->| ->]; reflexivity).
  destruct k; discriminate.
Qed.
Lemma convert_verb_inv : forall v, convert_verb v <> -1 -> VLevel v (convert_verb v).
Proof.
  intros v. unfold convert_verb.
  destruct (String.eqb_spec v "NONE") as [->|]; [intros; exists "NONE", 0%nat; cbn; auto|].
  destruct (String.eqb_spec v "UVM_NONE") as [->|]; [intros; exists "NONE", 0%nat; cbn; auto|].
  destruct (String.eqb_spec v "LOW") as [->|]; [intros; exists "LOW", 1%nat; cbn; auto|].
  destruct (String.eqb_spec v "UVM_LOW") as [->|]; [intros; exists "LOW", 1%nat; cbn; auto|].
  destruct (String.eqb_spec v "MEDIUM") as [->|]; [intros; exists "MEDIUM", 2%nat; cbn; auto|].
  destruct (String.eqb_spec v "UVM_MEDIUM") as [->|]; [intros; exists "MEDIUM", 2%nat; cbn; auto|].
  destruct (String.eqb_spec v "HIGH") as [->|]; [intros; exists "HIGH", 3%nat; cbn; auto|].
  destruct (String.eqb_spec v "UVM_HIGH") as [->|]; [intros; exists "HIGH", 3%nat; cbn; auto|].
  destruct (String.eqb_spec v "FULL") as [->|]; [intros; exists "FULL", 4%nat; cbn; auto|].
  destruct (String.eqb_spec v "UVM_FULL") as [->|]; [intros; exists "FULL", 4%nat; cbn; auto|].
  destruct (String.eqb_spec v "DEBUG") as [->|]; [intros; exists "DEBUG", 5%nat; cbn; auto|].
  destruct (String.eqb_spec v "UVM_DEBUG") as [->|]; [intros; exists "DEBUG", 5%nat; cbn; auto|].
  cbn. congruence.
Qed.
Lemma convert_verb_bad : forall v, (forall z, ~ VLevel v z) -> convert_verb v = -1.
Proof. intros v N. destruct (Z.eq_dec (convert_verb v) (-1)) as [E|E]; [assumption|]. exfalso. eapply N, convert_verb_inv, E. Qed.

Lemma apply_verb_eq : forall top name s o,
  apply_verb is_match top name s o =
  VOut (now o ++ map said (filter (AtOnce is_match name) [s])) (later o ++ filter (Kept is_match name) [s])
       (timed o ++ (if top then filter (fun s => String.eqb (v_phase s) "time") [s] else [])).
Proof.
  intros top name s o. unfold apply_verb, AtOnce, Kept, tell, said, ALL. cbn [filter existsb map].
  destruct (is_match (v_comp s) name), (v_off s =? 0), top;
    destruct (String.eqb_spec (v_phase s) "") as [E1|E1]; destruct (String.eqb_spec (v_phase s) "build") as [E2|E2];
    destruct (String.eqb_spec (v_phase s) "time") as [E3|E3]; try congruence; cbn; rewrite ?app_nil_r; reflexivity.
Qed.
Lemma verb_loop_good : forall first top name values ss, Forall2 (fun v s => exists fs, Fields fs /\ v = line fs /\ VGood to_int fs s) values ss ->
  forall pre o, verb_loop is_match to_int first top name (List.length values) (List.length pre) (pre ++ values) o =
  Some (VOut (now o ++ map said (filter (AtOnce is_match name) ss)) (later o ++ filter (Kept is_match name) ss)
       (timed o ++ (if top then filter (fun s => String.eqb (v_phase s) "time") ss else []))).
Proof.
  intros first top name values ss H. induction H as [|v s values ss (fs & F & -> & G) H IH]; intros pre o.
  - cbn. destruct o, top; cbn; now rewrite !app_nil_r.
  - cbn [List.length verb_loop]. rewrite nth_error_app2, Nat.sub_diag by lia. cbn [nth_error].
    rewrite split_line by assumption.
    assert (ST : forall off, verb_loop is_match to_int first top name (List.length values) (S (List.length pre)) (pre ++ line fs :: values)
      (apply_verb is_match top name s off) = Some (VOut (now off ++ map said (filter (AtOnce is_match name) (s :: ss))) (later off ++ filter (Kept is_match name) (s :: ss))
       (timed off ++ (if top then filter (fun s => String.eqb (v_phase s) "time") (s :: ss) else [])))).
    { intros off. specialize (IH (pre ++ [line fs]) (apply_verb is_match top name s off)).
      rewrite <- app_assoc in IH. cbn [app] in IH. rewrite app_length in IH. cbn [List.length] in IH. rewrite Nat.add_1_r in IH.
      rewrite IH, apply_verb_eq. cbn [now later timed]. f_equal.
      change (s :: ss) with ([s] ++ ss). rewrite !filter_app, map_app, <- !app_assoc. destruct top; cbn; rewrite ?app_nil_r; reflexivity. }
    destruct G as [c i v p z L|c i v p oo z off L O]; cbn [List.length Nat.leb Nat.eqb fld nth orb negb];
      rewrite (convert_verb_level _ _ L); replace (z =? -1) with false by (symmetry; apply Z.eqb_neq; pose proof (VLevel_nonneg _ _ L); lia);
      rewrite andb_false_r; [|rewrite O]; apply ST.
Qed.
Lemma remove_at_length : forall A i (l : list A), (i < List.length l)%nat -> List.length (remove_at i l) = (List.length l - 1)%nat.
Proof. intros A i l H. unfold remove_at. rewrite app_length, firstn_length, skipn_length. lia. Qed.
Lemma verb_loop_over : forall first top name todo i values o, (0 < todo)%nat -> (List.length values < i + todo)%nat ->
  verb_loop is_match to_int first top name todo i values o = None.
Proof.
  intros first top name. induction todo as [|todo IH]; intros i values o P L; [lia|]. cbn [verb_loop].
  destruct (nth_error values i) as [v|] eqn:N; [|reflexivity].
  assert (i < List.length values)%nat by (apply nth_error_Some; congruence).
  destruct (_ <=? 2)%nat; [reflexivity|]. destruct (_ && _).
  - apply IH; [lia|]. rewrite remove_at_length by assumption. lia.
  - destruct (_ =? 3)%nat; [reflexivity|]. destruct (if (_ =? 5)%nat then _ else _); [|reflexivity]. apply IH; lia.
Qed.
Lemma verb_loop_bad : forall top name todo i values o k fs, (i <= k)%nat -> (k + 1 < i + todo)%nat ->
  nth_error values k = Some (line fs) -> Fields fs -> VBad fs -> List.length values = (i + todo)%nat ->
  verb_loop is_match to_int true top name todo i values o = None.
Proof.
  intros top name. induction todo as [|todo IH]; intros i values o k fs I K N F B L; [lia|]. cbn [verb_loop].
  destruct (nth_error values i) as [v|] eqn:E; [|reflexivity].
  assert (II : (i < List.length values)%nat) by (apply nth_error_Some; congruence).
  destruct (Nat.eq_dec i k) as [->|NE].
  - rewrite N in E. injection E as <-. rewrite split_line by assumption.
    destruct (_ <=? 2)%nat eqn:L2; [reflexivity|]. apply Nat.leb_gt in L2.
    replace (true && _) with true.
    + apply verb_loop_over; [lia|]. rewrite remove_at_length by assumption. lia.
    + symmetry. cbn [andb]. apply orb_true_iff. destruct B as [[B4 B5]|(v & Nv & B)].
      * left. now rewrite (proj2 (Nat.eqb_neq _ _) B4), (proj2 (Nat.eqb_neq _ _) B5).
      * right. apply Z.eqb_eq. apply convert_verb_bad. unfold fld. now rewrite (nth_error_nth _ _ _ Nv).
  - destruct (_ <=? 2)%nat; [reflexivity|]. destruct (_ && _).
    + apply verb_loop_over; [lia|]. rewrite remove_at_length by assumption. lia.
    + destruct (_ =? 3)%nat; [reflexivity|]. destruct (if (_ =? 5)%nat then _ else _); [|reflexivity].
      eapply IH with (k := k); eauto; lia.
Qed.
End S.

(** ** Timed settings *)
Lemma insert_perm : forall s l, Permutation (insert s l) (s :: l).
Proof.
  intros s l. induction l as [|x l IH]; cbn; [reflexivity|]. destruct (_ <? _); [reflexivity|].
  rewrite IH. apply perm_swap.
Qed.
Lemma insert_sorted : forall s l, StronglySorted (fun a b => v_off a <= v_off b) l -> StronglySorted (fun a b => v_off a <= v_off b) (insert s l).
Proof.
  intros s l H. induction H as [|x l H IH F]; cbn; [repeat constructor|].
  destruct (Z.ltb_spec (v_off s) (v_off x)).
  - constructor; [constructor; assumption|]. constructor; [lia|]. eapply Forall_impl; [|exact F]. cbn. intros; lia.
  - constructor; [assumption|]. apply Forall_forall. intros y I. apply (Permutation_in _ (insert_perm s l)) in I as [<-|I]; [lia|].
    exact (proj1 (Forall_forall _ _) F y I).
Qed.
Lemma sorted_spec : forall l, StronglySorted (fun a b => v_off a <= v_off b) (sorted l) /\ Permutation (sorted l) l.
Proof.
  intros l. unfold sorted.
  enough (H : forall acc, StronglySorted (fun a b => v_off a <= v_off b) acc ->
    StronglySorted (fun a b => v_off a <= v_off b) (fold_left (fun acc s => insert s acc) l acc) /\ Permutation (fold_left (fun acc s => insert s acc) l acc) (acc ++ l)).
  { destruct (H []) as [A B]; [constructor|]. split; [exact A|exact B]. }
  induction l as [|s l IH]; intros acc A; cbn; [rewrite app_nil_r; auto|].
  destruct (IH (insert s acc)) as [B C]; [now apply insert_sorted|]. split; [exact B|].
  rewrite C, insert_perm. cbn. apply Permutation_middle.
Qed.
(** equal offsets keep their order *)
Lemma insert_filter : forall k s l, StronglySorted (fun a b => v_off a <= v_off b) l ->
  filter (fun x => v_off x =? k) (insert s l) = filter (fun x => v_off x =? k) (l ++ [s]).
Proof.
  intros k s l H. induction H as [|x l H IH F]; cbn; [reflexivity|].
  destruct (Z.ltb_spec (v_off s) (v_off x)) as [C|C]; cbn.
  - rewrite filter_app. cbn. destruct (Z.eqb_spec (v_off s) k) as [E|E].
    + replace (v_off x =? k) with false by (symmetry; apply Z.eqb_neq; lia).
      replace (filter _ l) with (@nil setting); [reflexivity|]. symmetry. subst k.
      clear -F C. induction F as [|y l Y F IH]; [reflexivity|]. cbn. replace (v_off y =? v_off s) with false by (symmetry; apply Z.eqb_neq; lia). exact IH.
    + rewrite app_nil_r. reflexivity.
  - now rewrite IH.
Qed.
Lemma sorted_stable : forall k l, filter (fun x => v_off x =? k) (sorted l) = filter (fun x => v_off x =? k) l.
Proof.
  intros k l. unfold sorted.
  enough (H : forall acc, StronglySorted (fun a b => v_off a <= v_off b) acc ->
    filter (fun x => v_off x =? k) (fold_left (fun acc s => insert s acc) l acc) = filter (fun x => v_off x =? k) (acc ++ l)) by (apply (H []); constructor).
  induction l as [|s l IH]; intros acc A; cbn; [now rewrite app_nil_r|].
  rewrite IH by now apply insert_sorted. rewrite filter_app, insert_filter by assumption.
  rewrite <- filter_app, <- app_assoc. reflexivity.
Qed.
Lemma fork_spec : forall l last, map snd (fork last l) = l /\
  forall i t s, nth_error (fork last l) i = Some (t, s) -> t = v_off s - match i with O => last | S _ => off_before l i end.
Proof.
  induction l as [|x l IH]; intros last; cbn; [split; [reflexivity|intros [|i] t s H; discriminate]|].
  destruct (IH (v_off x)) as [M N]. split; [now rewrite M|]. intros [|i] t s H.
  - injection H as <- <-. reflexivity.
  - cbn in H. rewrite (N _ _ _ H). destruct i; reflexivity.
Qed.

(** ** Configuration *)
Section C.
Context (num : Z -> string -> option Z).
Lemma int_value_text : forall s, IntText num s (int_value num s).
Proof.
  intros s. unfold int_value.
  destruct s as [|a s]; [apply it_dec; intros p x I E; destruct p; [repeat (destruct I as [I|I]; [discriminate|]); destruct I|discriminate]|].
  destruct s as [|b s].
  { apply it_dec. intros p x I E. repeat (destruct I as [<-|I]; [discriminate|]). destruct I. }
  destruct s as [|c s].
  { apply it_dec. intros p x I E. repeat (destruct I as [<-|I]; [cbn in E; injection E; auto|]). destruct I. }
  cbn [String.length Nat.ltb Nat.leb]. 
  assert (S2 : substring 0 2 (String a (String b (String c s))) = String a (String b "")) by reflexivity.
  rewrite S2. cbn [drop].
  assert (B : forall p n, In (p, n) [("'b", 2); ("0b", 2); ("'o", 8); ("'d", 10); ("'h", 16); ("'x", 16); ("0x", 16)] ->
     String a (String b "") = p -> IntText num (String a (String b (String c s))) (num n (String c s))).
  { intros p n I E. change (String a (String b (String c s))) with (String a (String b "") ++ String c s)%string. rewrite E.
    apply it_base; [assumption|discriminate]. }
  destruct (String.eqb_spec (String a (String b "")) "'b") as [E1|N1]; [eapply B; [|exact E1]; cbn; tauto|].
  destruct (String.eqb_spec (String a (String b "")) "0b") as [E2|N2]; [eapply B; [|exact E2]; cbn; tauto|].
  destruct (String.eqb_spec (String a (String b "")) "'o") as [E3|N3]; [eapply B; [|exact E3]; cbn; tauto|].
  destruct (String.eqb_spec (String a (String b "")) "'d") as [E4|N4]; [eapply B; [|exact E4]; cbn; tauto|].
  destruct (String.eqb_spec (String a (String b "")) "'h") as [E5|N5]; [eapply B; [|exact E5]; cbn; tauto|].
  destruct (String.eqb_spec (String a (String b "")) "'x") as [E6|N6]; [eapply B; [|exact E6]; cbn; tauto|].
  destruct (String.eqb_spec (String a (String b "")) "0x") as [E7|N7]; [eapply B; [|exact E7]; cbn; tauto|].
  cbn [orb]. apply it_dec. intros p x I E. exfalso.
  repeat (destruct I as [<-|I]; [cbn in E; injection E; intros; subst; congruence|]). destruct I.
Qed.
Lemma process_int : forall fs, Fields fs -> IntEff num fs (process_config num true (line fs)).
Proof.
  intros fs F. unfold process_config. rewrite split_line by assumption.
  destruct fs as [|p [|f [|v [|]]]]; try (apply ie_bad; cbn; lia).
  pose proof (int_value_text v) as T. destruct (int_value num v); [now apply ie_set|now apply ie_raise].
Qed.
Lemma process_str : forall fs, Fields fs -> exists e, process_config num false (line fs) = Some e /\ StrEff fs e.
Proof.
  intros fs F. unfold process_config. rewrite split_line by assumption.
  destruct fs as [|p [|f [|v [|]]]]; eexists; split; try reflexivity; try (apply se_set); apply se_bad; cbn; lia.
Qed.
Lemma starts_no : forall p a, (forall v, a <> (p ++ v)%string) -> starts p a = false.
Proof. intros p a N. destruct (starts p a) eqn:E; [|reflexivity]. apply prefix_app in E as [v E]. now apply N in E. Qed.
Lemma cfg_split : forall l, Forall carg_ok l ->
  cfg_ints (map carg_text l) = map line (int_fields l) /\ cfg_strings (map carg_text l) = map line (str_fields l) /\
  Forall Fields (int_fields l) /\ Forall Fields (str_fields l).
Proof.
  induction 1 as [|c l OK F (I & T & FI & FT)]; [repeat split; constructor|].
  unfold cfg_ints, cfg_strings, int_fields, str_fields in *. cbn [map flat_map filter].
  revert I T FI FT. generalize (filter (fun a => starts "+UVM_SET_CONFIG_INT" a || starts "+uvm_set_config_int" a) (map carg_text l)).
  generalize (filter (fun a => starts "+UVM_SET_CONFIG_STRING" a || starts "+uvm_set_config_string" a) (map carg_text l)).
  generalize (flat_map (fun c => match c with ArgInt _ fs => [fs] | _ => [] end) l), (flat_map (fun c => match c with ArgStr _ fs => [fs] | _ => [] end) l).
  intros li lt fi ft I T FI FT. destruct c as [u fs|u fs|a].
  - assert (D : drop 20 (carg_text (ArgInt u fs)) = line fs) by (destruct u; reflexivity).
    assert (P : starts "+UVM_SET_CONFIG_INT" (carg_text (ArgInt u fs)) || starts "+uvm_set_config_int" (carg_text (ArgInt u fs)) = true) by (destruct u; reflexivity).
    assert (Q : starts "+UVM_SET_CONFIG_STRING" (carg_text (ArgInt u fs)) || starts "+uvm_set_config_string" (carg_text (ArgInt u fs)) = false) by (destruct u; reflexivity).
    rewrite P, Q. cbn [map app]. rewrite D, I, T. repeat match goal with |- _ /\ _ => split end; auto.
  - assert (D : drop 23 (carg_text (ArgStr u fs)) = line fs) by (destruct u; reflexivity).
    assert (P : starts "+UVM_SET_CONFIG_INT" (carg_text (ArgStr u fs)) || starts "+uvm_set_config_int" (carg_text (ArgStr u fs)) = false) by (destruct u; reflexivity).
    assert (Q : starts "+UVM_SET_CONFIG_STRING" (carg_text (ArgStr u fs)) || starts "+uvm_set_config_string" (carg_text (ArgStr u fs)) = true) by (destruct u; reflexivity).
    rewrite P, Q. cbn [map app]. rewrite D, I, T. repeat match goal with |- _ /\ _ => split end; auto.
  - cbn [carg_text]. rewrite !starts_no by (intros v; apply OK; cbn; tauto). cbn. auto.
Qed.
Lemma process_ints : forall fss, Forall Fields fss ->
  let (es, ok) := process_all num true (map line fss) in
  exists done rest, fss = done ++ rest /\ Forall2 (fun fs e => IntEff num fs (Some e)) done es /\
  (if ok then rest = [] else exists fs r, rest = fs :: r /\ IntEff num fs None).
Proof.
  induction fss as [|fs fss IH]; intros F; [exists [], []; repeat constructor|]. inversion F; subst.
  cbn [map process_all]. pose proof (process_int fs ltac:(assumption)) as P. destruct (process_config num true (line fs)) as [e|].
  - specialize (IH ltac:(assumption)). destruct (process_all num true (map line fss)) as [es ok].
    destruct IH as (d & r & -> & D & R). exists (fs :: d), r. repeat split; [constructor; assumption|exact R].
  - exists [], (fs :: fss). repeat split; [constructor|eauto].
Qed.
Lemma process_strs : forall fss, Forall Fields fss -> exists es, process_all num false (map line fss) = (es, true) /\ Forall2 StrEff fss es.
Proof.
  induction fss as [|fs fss IH]; intros F; [exists []; repeat constructor|]. inversion F; subst.
  destruct (process_str fs) as (e & E & P); [assumption|]. destruct IH as (es & E2 & P2); [assumption|].
  exists (e :: es). cbn [map process_all]. rewrite E, E2. split; [reflexivity|now constructor].
Qed.
End C.
