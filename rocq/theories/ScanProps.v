(** C211-C213: sscanf, +UVM_VERBOSITY and +uvm_set_inst_override. *)
From Coq Require Import ZArith List Bool Arith String Ascii Lia.
From Verif Require Import Prelude CmdModel CmdSpec CmdProofs CmdProps ScanModel ScanSpec ScanProofs.
Import ListNotations.
Local Open Scope Z_scope.
Local Open Scope list_scope.
Definition txt (s : string) : text := list_ascii_of_string s.

(** ** C211: sscanf *)
(** Every text is read in some way by the conversions of a format. *)
Theorem C211_total ks t : exists ws left, reads ks t ws left.
Proof. apply reads_total. Qed.
Print Assumptions C211_total.
(** The result is the values of the words found, if each conversion finds one; else nothing. It
    raises ValueError exactly if one of the words found has no value. *)
Theorem C211_reads t f ws left : let ks := formats None f in ks <> [] -> reads ks t ws left ->
  (exists vs, Forall2 means ws vs /\ sscanf t f = Vals (match left with [] => vs | _ => [] end)) \/
  (exists w, In w ws /\ (forall v, ~ means w v) /\ sscanf t f = ValueErr).
Proof. intros ks NE R. exact (reads_scan ks t ws left R [] NE). Qed.
Print Assumptions C211_reads.
(** So the result has as many values as there are conversions, or none. *)
Theorem C211_all_or_none t f l : sscanf t f = Vals l -> l = [] \/ List.length l = List.length (formats None f).
Proof.
  intros E. destruct (formats None f) as [|k ks] eqn:F.
  - unfold sscanf in E. rewrite F in E. destruct t; [injection E as <-; auto|discriminate].
  - destruct (C211_total (formats None f) t) as (ws & left & R). pose proof R as R'.
    apply C211_reads in R; [|congruence]. destruct R as [(vs & V & H)|(w & _ & _ & H)]; rewrite H in E; [|discriminate].
    injection E as <-. destruct left as [|k' l']; [right|now left]. rewrite <- F.
    assert (L : List.length ws = List.length vs) by (clear -V; induction V; cbn; congruence). rewrite <- L. clear -R'.
    remember [] as z eqn:Z. induction R'; subst; cbn; auto. discriminate.
Qed.
Print Assumptions C211_all_or_none.
(** A number, a separator and a word. *)
Lemma digit_taken c d : digit 10 c d -> taken KD c.
Proof. intros D. right. cbn. unfold between. destruct D; lia. Qed.
Lemma numeral_taken s v : numeral 10 s v -> Forall (taken KD) s /\ s <> [].
Proof.
  induction 1 as [c d D|s v c d N [IH _] D|s v c d N [IH _] D]; (split; [|try discriminate; destruct s; discriminate]).
  - constructor; [eapply digit_taken; eauto|constructor].
  - apply Forall_app. split; auto. constructor; [eapply digit_taken; eauto|constructor].
  - apply Forall_app. split; auto. constructor; [now left|]. constructor; [eapply digit_taken; eauto|constructor].
Qed.
Lemma numeral_means s v : numeral 10 s v -> means (KD, s) (VInt v).
Proof.
  intros N. apply m_int; [discriminate|]. exists [], [], s. repeat split; try constructor; [now rewrite app_nil_r|exact N].
Qed.
Theorem C211_number_and_word n v c w : numeral 10 n v -> ~ taken KD c -> c <> nl -> w <> [] -> Forall (taken KS) w ->
  sscanf (n ++ c :: w) (txt "%d,%s") = Vals [VInt v; VStr w].
Proof.
  intros N C1 C2 W1 W2. destruct (numeral_taken n v N) as [T T'].
  assert (R : reads (formats None (txt "%d,%s")) (n ++ c :: w) [(KD, n); (KS, w)] []).
  { change (formats None (txt "%d,%s")) with [KD; KS]. apply r_word with (rest := w).
    - exists [], n, (c :: w), []. repeat split; auto; [constructor|now apply a_lost|now rewrite app_nil_r].
    - apply r_word with (rest := []); [|constructor]. exists [], w, [], []. repeat split; auto; try constructor; now rewrite !app_nil_r. }
  apply C211_reads in R; [|discriminate]. destruct R as [(vs & V & E)|(x & I & X & _)].
  - rewrite E. inversion V as [|? ? ? ? M1 V1]; subst. inversion V1 as [|? ? ? ? M2 V2]; subst. inversion V2; subst.
    inversion M2; subst; [|congruence]. apply conv_means in M1. rewrite (proj2 (conv_means _ _ _) (numeral_means n v N)) in M1. now injection M1 as <-.
  - destruct I as [<-|[<-|[]]]; exfalso; [apply (X (VInt v)); now apply numeral_means|apply (X (VStr w)); constructor].
Qed.
Print Assumptions C211_number_and_word.
(** The sign of a number is lost. *)
Theorem C211_sign_limit n v : numeral 10 n v -> sscanf ("-"%char :: n) (txt "%d") = Vals [VInt v].
Proof.
  intros N. destruct (numeral_taken n v N) as [T T'].
  assert (R : reads (formats None (txt "%d")) ("-"%char :: n) [(KD, n)] []).
  { change (formats None (txt "%d")) with [KD]. apply r_word with (rest := []); [|constructor].
    exists ["-"%char], n, [], []. repeat split; auto; try constructor; auto; [apply taken_not_minus|constructor|cbn; now rewrite app_nil_r|now rewrite app_nil_r]. }
  apply C211_reads in R; [|discriminate]. destruct R as [(vs & V & E)|(x & I & X & _)].
  - rewrite E. inversion V as [|? ? ? ? M1 V1]; subst. inversion V1; subst.
    apply conv_means in M1. rewrite (proj2 (conv_means _ _ _) (numeral_means n v N)) in M1. now injection M1 as <-.
  - destruct I as [<-|[]]; exfalso; apply (X (VInt v)); now apply numeral_means.
Qed.
Print Assumptions C211_sign_limit.
(** So a time-out given as a number and a word sets the word (C142). *)
Definition scan_timeout (s : string) : list tval :=
  match sscanf (txt s) (txt "%d,%s") with
  | Vals l => map (fun v => match v with VInt z => TNum z | VStr w => TStr (string_of_list_ascii w) end) l
  | _ => []
  end.
Theorem C211_timeout n v c w rest s : numeral 10 n v -> ~ taken KD c -> c <> nl -> w <> [] -> Forall (taken KS) w -> t_over s = true ->
  do_timeout scan_timeout (string_of_list_ascii (n ++ c :: w) :: rest) s = TSt (TStr (string_of_list_ascii w)) true.
Proof.
  intros N C1 C2 W1 W2 O. destruct (C142_timeout scan_timeout (string_of_list_ascii (n ++ c :: w)) rest s O) as [H _].
  apply (H v). unfold scan_timeout, txt. rewrite list_ascii_of_string_of_list_ascii. change (list_ascii_of_string "%d,%s") with (txt "%d,%s").
  now rewrite (C211_number_and_word n v c w).
Qed.
Print Assumptions C211_timeout.
(** The character that ends a word is lost; so is what %o and %h pass over. *)
Example C211_example :
  sscanf (txt "12ab") (txt "%d%s") = Vals [VInt 12; VStr (txt "b")] /\
  sscanf (txt "x=0x1F, 7") (txt "%h %d") = Vals [VInt 31; VInt 7] /\
  sscanf (txt "x =0x1F") (txt "%h") = Vals [] /\
  sscanf (txt "o17") (txt "%o") = Vals [VInt 7] /\
  sscanf (txt "5 _") (txt "%d %d") = ValueErr /\
  sscanf (txt "5") (txt "none") = IndexErr.
Proof. vm_compute. repeat split. Qed.
Example C211_numerals : numeral 10 (txt "1_0") 10 /\ means (KD, txt "1_0") (VInt 10) /\ means (KH, txt "fF") (VInt 255).
Proof.
  assert (N : numeral 10 (txt "1_0") 10) by (apply (digits_iff 10 ltac:(lia)); reflexivity).
  split; [exact N|]. split; [now apply numeral_means|]. apply conv_means. reflexivity.
Qed.

(** ** C212: +UVM_VERBOSITY *)
Lemma verb_name_iff s z : verb_name s = Some z <-> names_level s z.
Proof.
  split.
  - unfold verb_name. intros H.
    repeat match type of H with (if String.eqb ?a ?b then _ else _) = _ => destruct (String.eqb_spec a b) as [->|_];
      [injection H as <-; eexists; split; [cbn; tauto|]; cbn; tauto|] end. discriminate.
  - intros (n & I & E). cbn in I. repeat destruct I as [I|I]; try (injection I as <- <-; destruct E as [->| ->]; reflexivity). contradiction.
Qed.
Lemma name_no_int s z : names_level s z -> pyint 10 (txt s) = None.
Proof.
  intros (n & I & E). cbn in I. repeat destruct I as [I|I]; try (injection I as <- <-; destruct E as [->| ->]; reflexivity). contradiction.
Qed.
(** The first argument decides. *)
Theorem C212_level argv vs : Selects (ValueOf "+UVM_VERBOSITY=") argv vs ->
  match vs with
  | [] => fst (check_verbosity argv) = Some 200
  | v :: _ =>
      (forall z, names_level v z -> fst (check_verbosity argv) = Some z) /\
      (forall z, integer 10 (txt v) z -> z <> 0 -> fst (check_verbosity argv) = Some z) /\
      (integer 10 (txt v) 0 -> fst (check_verbosity argv) = Some 200) /\
      (fst (check_verbosity argv) = None <-> (forall z, ~ names_level v z) /\ (forall z, ~ integer 10 (txt v) z))
  end.
Proof.
  intros S. apply C136_values in S. unfold check_verbosity. rewrite S. destruct vs as [|v vs]; [reflexivity|]. cbn [List.length app].
  fold (txt v). assert (PI : forall z, pyint 10 (txt v) = Some z <-> integer 10 (txt v) z) by (intros z; apply pyint_iff; lia).
  split; [|split; [|split]].
  - intros z N. apply verb_name_iff in N. now rewrite N.
  - intros z I NZ. apply PI in I. destruct (verb_name v) as [l|] eqn:EV; [apply verb_name_iff, name_no_int in EV; congruence|]. rewrite I.
    destruct (0 <? z)%Z; [reflexivity|]. destruct (Z.eqb_spec z 0); [contradiction|reflexivity].
  - intros I. apply PI in I. destruct (verb_name v) as [l|] eqn:EV; [apply verb_name_iff, name_no_int in EV; congruence|]. rewrite I. reflexivity.
  - destruct (verb_name v) as [l|] eqn:EV.
    + split; [discriminate|]. intros [H _]. apply verb_name_iff in EV. now apply H in EV.
    + destruct (pyint 10 (txt v)) as [z|] eqn:EP.
      * split; [destruct (0 <? z)%Z; [discriminate|]; destruct (z =? 0)%Z; discriminate|]. intros [_ H]. exfalso. apply (H z). now apply PI.
      * split; [intros _|reflexivity]. split; intros z H; [apply verb_name_iff in H|apply PI in H]; congruence.
Qed.
Print Assumptions C212_level.
(** What is reported: the default, more than one argument (the list shown has one empty entry
    more), a positive number, zero. A negative level is taken silently. *)
Theorem C212_messages argv vs n : Selects (ValueOf "+UVM_VERBOSITY=") argv vs ->
  In n (snd (check_verbosity argv)) <->
  match n with
  | DefVerb => vs = []
  | MultVerb k used all => (2 <= List.length vs)%nat /\ k = List.length vs /\ used = hd ""%string vs /\ all = vs ++ [""%string]
  | NstVerb z => exists v r, vs = v :: r /\ integer 10 (txt v) z /\ 0 < z
  | IllVerb => exists v r, vs = v :: r /\ integer 10 (txt v) 0
  end.
Proof.
  intros S. apply C136_values in S. unfold check_verbosity. rewrite S. destruct vs as [|v vs].
  - cbn. destruct n; intuition (try discriminate); firstorder (discriminate || lia).
  - cbn [List.length app hd]. fold (txt v).
    assert (PI : forall z, pyint 10 (txt v) = Some z <-> integer 10 (txt v) z) by (intros z; apply pyint_iff; lia).
    set (w := if Nat.ltb 1 (Datatypes.S (List.length vs)) then _ else _).
    assert (W : forall n, In n w <-> (2 <= Datatypes.S (List.length vs))%nat /\ n = MultVerb (Datatypes.S (List.length vs)) v (v :: vs ++ [""%string])).
    { intros n0. unfold w. destruct (Nat.ltb_spec 1 (Datatypes.S (List.length vs))); cbn; split; [intros [<-|[]]; split; auto; lia|intros [_ ->]; auto|tauto|lia]. }
    assert (NI : verb_name v <> None -> forall z, ~ integer 10 (txt v) z).
    { intros NV z I. apply PI in I. destruct (verb_name v) as [l|] eqn:EV; [|congruence]. apply verb_name_iff, name_no_int in EV. congruence. }
    destruct (verb_name v) as [l|] eqn:EV; [|destruct (pyint 10 (txt v)) as [z|] eqn:EP].
    + cbn [snd]. rewrite W. specialize (NI ltac:(discriminate)). destruct n; split.
      all: try (intros [_ H]; discriminate).
      all: try (intros [H1 H2]; injection H2 as -> -> ->; now auto).
      all: try discriminate.
      * intros (H1 & -> & -> & ->). auto.
      * intros (v' & r & E & I & _). injection E as <- <-. now apply NI in I.
      * intros (v' & r & E & I). injection E as <- <-. now apply NI in I.
    + assert (I : integer 10 (txt v) z) by now apply PI.
      assert (U : forall y, integer 10 (txt v) y -> y = z) by (intros y Y; apply PI in Y; congruence).
      assert (Q : forall n, In n (snd (if (0 <? z)%Z then (Some z, w ++ [NstVerb z]) else if (z =? 0)%Z then (Some 200, w ++ [IllVerb]) else (Some z, w))) <->
        In n w \/ n = NstVerb z /\ 0 < z \/ n = IllVerb /\ z = 0).
      { intros n0. destruct (Z.ltb_spec 0 z); [|destruct (Z.eqb_spec z 0)]; cbn [snd]; rewrite ?in_app_iff; cbn; split; intuition (subst; auto; try lia). }
      rewrite Q, W. destruct n; split.
      all: try (intros [[_ H]|[[H _]|[H _]]]; discriminate).
      * discriminate.
      * intros [[H1 H2]|[[H _]|[H _]]]; try discriminate. injection H2 as -> -> ->. auto.
      * intros (H1 & -> & -> & ->). auto.
      * intros [[_ H]|[[H L]|[H _]]]; try discriminate. injection H as ->. eauto 6.
      * intros (v' & r & E & I' & L). injection E as <- <-. apply U in I'. subst. right. left. auto.
      * intros [[_ H]|[[H _]|[_ H]]]; try discriminate. subst. eauto.
      * intros (v' & r & E & I'). injection E as <- <-. apply U in I'. subst. right. right. auto.
    + assert (NI' : forall z, ~ integer 10 (txt v) z) by (intros z I; apply PI in I; congruence).
      cbn [snd]. rewrite W. destruct n; split.
      all: try (intros [_ H]; discriminate).
      all: try discriminate.
      * intros [H1 H2]. injection H2 as -> -> ->. auto.
      * intros (H1 & -> & -> & ->). auto.
      * intros (v' & r & E & I & _). injection E as <- <-. now apply NI' in I.
      * intros (v' & r & E & I). injection E as <- <-. now apply NI' in I.
Qed.
Print Assumptions C212_messages.
Example C212_example :
  check_verbosity ["sim"; "+UVM_VERBOSITY=HIGH"; "+UVM_VERBOSITY=5"]%string =
    (Some 300, [MultVerb 2 "HIGH" ["HIGH"; "5"; ""]])%string /\
  check_verbosity ["+UVM_VERBOSITY= +1_50 "]%string = (Some 150, [NstVerb 150]) /\
  check_verbosity ["+UVM_VERBOSITY=0"]%string = (Some 200, [IllVerb]) /\
  check_verbosity ["+UVM_VERBOSITY=-1"]%string = (Some (-1), []) /\
  fst (check_verbosity ["+UVM_VERBOSITY=UVM_high"]%string) = None /\
  fst (check_verbosity ["+UVM_VERBOSITY="]%string) = None.
Proof. vm_compute. repeat split. Qed.

(** ** C213: overrides on the command line *)
Definition commas (s : string) : nat := count_occ ascii_dec (txt s) ","%char.
Lemma split_commas s : List.length (split comma s) = Datatypes.S (commas s).
Proof.
  induction s as [|c s IH]; [reflexivity|]. unfold commas, txt in *. cbn [split list_ascii_of_string count_occ].
  destruct (Ascii.eqb_spec c comma) as [->|N].
  - cbn [List.length]. rewrite IH. destruct (ascii_dec comma ",") as [_|N]; [reflexivity|now destruct N].
  - destruct (ascii_dec c ",") as [->|_]; [now destruct N|]. destruct (split comma s); cbn in *; congruence.
Qed.
(** An argument for instance overrides: the text up to the equals sign, in upper or lower case;
    the sign itself is not looked at. *)
Definition for_inst (a : string) : Prop := exists r, a = String.append "+UVM_SET_INST_OVERRIDE" r \/ a = String.append "+uvm_set_inst_override" r.
Lemma starts_iff m a : starts m a = true <-> exists r, a = String.append m r.
Proof. apply prefix_app. Qed.
Lemma for_inst_iff a : (starts "+UVM_SET_INST_OVERRIDE" a || starts "+uvm_set_inst_override" a) = true <-> for_inst a.
Proof.
  rewrite orb_true_iff, !starts_iff. unfold for_inst. split; [intros [[r H]|[r H]]; eauto|intros [r [H|H]]; eauto].
Qed.
(** What follows the first 23 characters. *)
Definition after23 (a v : string) : Prop :=
  (exists p, a = String.append p v /\ String.length p = 23%nat) \/ (String.length a < 23)%nat /\ v = ""%string.
Definition Override (a v : string) : Prop := for_inst a /\ after23 a v.
Lemma after23_drop a v : after23 a v <-> v = drop 23 a.
Proof.
  split.
  - intros [(p & -> & <-)|[L ->]]; [now rewrite drop_app|]. revert L. generalize 23%nat as n. induction a as [|c a IH]; intros [|n] L; cbn in *; auto; try lia. apply IH. lia.
  - intros ->. unfold after23. generalize 23%nat as n. induction a as [|c a IH]; intros [|n]; cbn.
    + left. exists ""%string. auto.
    + right. split; [lia|reflexivity].
    + left. exists ""%string. auto.
    + destruct (IH n) as [(p & E & L)|[L E]].
      * left. exists (String c p). cbn. split; congruence.
      * right. split; [lia|auto].
Qed.
Lemma override_sel argv : Selects Override argv (map (drop 23) (inst_args argv)).
Proof.
  induction argv as [|a argv IH]; [constructor|]. unfold inst_args in *. cbn [filter].
  destruct (starts "+UVM_SET_INST_OVERRIDE" a || starts "+uvm_set_inst_override" a) eqn:E.
  - cbn [map]. constructor; auto. split; [now apply for_inst_iff|now apply after23_drop].
  - apply sel_miss; auto. intros y [F _]. apply for_inst_iff in F. congruence.
Qed.
Lemma override_unique argv vs : Selects Override argv vs -> vs = map (drop 23) (inst_args argv).
Proof.
  induction 1 as [|a v argv vs [F D] _ IH|a argv vs N _ IH]; [reflexivity| |]; unfold inst_args in *; cbn [filter].
  - apply for_inst_iff in F. rewrite F. cbn [map]. apply after23_drop in D. congruence.
  - destruct (starts "+UVM_SET_INST_OVERRIDE" a || starts "+uvm_set_inst_override" a) eqn:E; [|exact IH].
    exfalso. apply (N (drop 23 a)). split; [now apply for_inst_iff|now apply after23_drop].
Qed.
Lemma process_errors l : Forall (fun v => commas v <> 2%nat) (map (drop 23) l) -> process_inst l = (map OErr (map (drop 23) l), true).
Proof.
  induction l as [|a l IH]; [reflexivity|]. intros F. cbn [map] in *. apply Forall_cons_iff in F as [H1 H2].
  change (process_inst (a :: l)) with (let v := drop 23 a in if Nat.eqb (List.length (split comma v)) 3 then ([OAttr v], false) else let (e, ok) := process_inst l in (OErr v :: e, ok)).
  revert H1. generalize (drop 23 a) as v. intros v H1. cbn zeta. rewrite split_commas, (IH H2). destruct (Nat.eqb_spec (Datatypes.S (commas v)) 3); [lia|reflexivity].
Qed.
Lemma process_raises r l v l' : l ++ v :: l' = map (drop 23) r -> Forall (fun v => commas v <> 2%nat) l -> commas v = 2%nat ->
  process_inst r = (map OErr l ++ [OAttr v], false).
Proof.
  revert l. induction r as [|a r IH]; intros l E F C; [now destruct l|]. change (map (drop 23) (a :: r)) with (drop 23 a :: map (drop 23) r) in E.
  change (process_inst (a :: r)) with (let v := drop 23 a in if Nat.eqb (List.length (split comma v)) 3 then ([OAttr v], false) else let (e, ok) := process_inst r in (OErr v :: e, ok)).
  revert E. generalize (drop 23 a) as u. intros u E. cbn zeta. rewrite split_commas. destruct l as [|x l]; injection E as -> E.
  - rewrite C. reflexivity.
  - apply Forall_cons_iff in F as [H1 H2]. rewrite (IH l E H2 C). destruct (Nat.eqb_spec (Datatypes.S (commas u)) 3); [lia|reflexivity].
Qed.
(** Every command line has its overrides. *)
Theorem C213_total argv : exists vs, Selects Override argv vs.
Proof. eexists. apply override_sel. Qed.
Print Assumptions C213_total.
(** An override that is not three fields is reported as an error; the first one that is raises
    AttributeError out of the build phase of the root, and the later ones are not looked at. So
    no override is ever made. *)
Theorem C213_errors argv vs : Selects Override argv vs -> Forall (fun v => commas v <> 2%nat) vs ->
  factory_settings argv = (map OErr vs, true).
Proof.
  intros S F. apply override_unique in S. subst vs. now apply process_errors.
Qed.
Print Assumptions C213_errors.
Theorem C213_raises argv l v l' : Selects Override argv (l ++ v :: l') -> Forall (fun v => commas v <> 2%nat) l -> commas v = 2%nat ->
  factory_settings argv = (map OErr l ++ [OAttr v], false).
Proof.
  intros S F C. apply override_unique in S. now apply process_raises with l'.
Qed.
Print Assumptions C213_raises.
Example C213_example :
  factory_settings ["+uvm_set_inst_override=a,b"; "+UVM_SET_INST_OVERRIDE=A,B,top.*"; "+uvm_set_inst_override=x"]%string =
    ([OErr "a,b"; OAttr "A,B,top.*"], false)%string /\
  factory_settings ["+uvm_set_inst_overrides=a,b"; "+uvm_set_inst_overrid=A,B,top"; "+uvm_set_inst_override"]%string = ([OErr "=a,b"; OErr ""], true)%string.
Proof. vm_compute. repeat split. Qed.
