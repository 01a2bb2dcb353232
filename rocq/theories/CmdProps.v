(** C136-C142: the command line. *)
From Coq Require Import List Bool Arith ZArith String Ascii Lia Permutation Sorted.
From Verif Require Import Prelude CmdModel CmdSpec CmdProofs.
Import ListNotations.
Local Open Scope string_scope.
Local Open Scope list_scope.

(** ** C136: looking up arguments *)
(** get_arg_values(m): the rests of the arguments that start with m, all, in order, and
    nothing else. *)
Theorem C136_values : forall argv m vs, get_arg_values argv m = vs <-> Selects (ValueOf m) argv vs.
Proof.
  intros argv m vs. split; [intros <-; apply Selects_values|].
  intros H. eapply Selects_det; [|apply Selects_values|exact H].
  intros x y z -> E. now apply append_inj in E.
Qed.
Print Assumptions C136_values.
(** get_arg_value(m): how many there are, and the first. *)
Theorem C136_first : forall argv m vs, Selects (ValueOf m) argv vs -> get_arg_value argv m = (List.length vs, firstn 1 vs).
Proof. intros argv m vs H. apply C136_values in H as <-. apply get_arg_value_eq. Qed.
Print Assumptions C136_first.
(** get_arg_matches(m): the arguments that start with m; written /p?/, those the expression p
    matches, where the character before the closing slash, whatever it is, does not count. *)
Theorem C136_matches : forall re argv m,
  ((forall p c, m <> ("/" ++ p ++ String c "/")%string) -> Selects (fun a b => b = a /\ exists v, ValueOf m a v) argv (get_arg_matches re argv m)) /\
  (forall p c, m = ("/" ++ p ++ String c "/")%string ->
     match re p with
     | Some f => Selects (fun a b => b = a /\ f a = true) argv (get_arg_matches re argv m)
     | None => get_arg_matches re argv m = []
     end).
Proof.
  intros re argv m. split.
  - intros N. unfold get_arg_matches. destruct (is_regex m) eqn:R; [exfalso; apply regex_inv in R as (p & c & E); exact (N p c E)|].
    clear. induction argv as [|a l IH]; cbn; [constructor|]. destruct (starts m a) eqn:E.
    + constructor; [|exact IH]. split; [reflexivity|]. now apply prefix_app.
    + apply sel_miss; [|exact IH]. intros y [_ H]. apply prefix_app in H. unfold starts in E. congruence.
  - intros p c ->. destruct (regex_shape p c) as [R P]. cbv zeta in R, P. unfold get_arg_matches. rewrite R, P.
    destruct (re p) as [f|]; [apply Selects_filter|reflexivity].
Qed.
Print Assumptions C136_matches.
(** The classes of arguments. Every plus argument is reported as just a plus sign. *)
Theorem C136_classes : forall argv, let '(args, plus, uvm) := extract_args argv in
  Selects (fun a b => b = a /\ a <> "") argv args /\
  plus = repeat "+" (List.length (get_arg_values args "+")) /\
  Selects (fun a b => b = a /\ exists c d e f v, a = String c (String d (String e (String f v))) /\
             In d ["U"; "u"]%char /\ In e ["V"; "v"]%char /\ In f ["M"; "m"]%char) args uvm.
Proof.
  intros argv. unfold extract_args. set (args := filter _ argv). cbv zeta.
  repeat match goal with |- _ /\ _ => split end.
  - unfold args. generalize (Selects_filter _ (fun a => negb (String.eqb a "")) argv). generalize (filter (fun a => negb (String.eqb a "")) argv).
    intros l H. induction H; [constructor|apply sel_hit; auto|apply sel_miss; auto].
    + destruct H as [-> H]. split; [reflexivity|]. intros ->. discriminate.
    + intros z [-> N]. apply (H x). split; [reflexivity|]. now rewrite (proj2 (String.eqb_neq x "") N).
  - assert (NE : Forall (fun a => a <> "") args).
    { apply Forall_forall. intros a I. apply filter_In in I as [_ I]. intros ->. discriminate. }
    clearbody args. clear argv. unfold get_arg_values. induction NE as [|a l N F IH]; [reflexivity|]. cbn [flat_map].
    destruct (starts "+" a) eqn:E; [|exact IH]. cbn [app List.length repeat]. rewrite <- IH. f_equal.
    apply prefix_app in E as [v ->]. now destruct v.
  - clearbody args. clear argv. generalize (Selects_filter _ (fun a => String.eqb (uppers (substring 1 3 a)) "UVM") args).
    generalize (filter (fun a => String.eqb (uppers (substring 1 3 a)) "UVM") args).
    assert (UP : forall d k, upper d = ascii_of_nat k -> (65 <= k <= 90)%nat -> d = ascii_of_nat k \/ d = ascii_of_nat (k + 32)).
    { intros d k E K. unfold upper in E.
      destruct ((97 <=? nat_of_ascii d)%nat && (nat_of_ascii d <=? 122)%nat) eqn:R; [right|left; exact E].
      apply andb_true_iff in R as [R1 R2]. apply Nat.leb_le in R1, R2.
      apply (f_equal nat_of_ascii) in E. rewrite !nat_ascii_embedding in E by lia.
      rewrite <- (ascii_nat_embedding d). f_equal. lia. }
    assert (IFF : forall a, String.eqb (uppers (substring 1 3 a)) "UVM" = true <->
      exists c d e f v, a = String c (String d (String e (String f v))) /\ In d ["U"; "u"]%char /\ In e ["V"; "v"]%char /\ In f ["M"; "m"]%char).
    { intros a. rewrite String.eqb_eq. split.
      - destruct a as [|c [|d [|e [|f v]]]]; cbn [substring uppers]; try discriminate.
        intros E. assert (E' : upper d = "U"%char /\ upper e = "V"%char /\ upper f = "M"%char).
        { destruct v; cbn [substring uppers] in E; injection E; auto. }
        destruct E' as (E1 & E2 & E3). exists c, d, e, f, v. split; [reflexivity|].
        destruct (UP d 85%nat) as [->| ->]; [exact E1|lia| |]; destruct (UP e 86%nat) as [->| ->]; try exact E2; try lia;
          destruct (UP f 77%nat) as [->| ->]; try exact E3; try lia; cbn; tauto.
      - intros (c & d & e & f & v & -> & D & E & F).
        destruct D as [<-|[<-|[]]], E as [<-|[<-|[]]], F as [<-|[<-|[]]]; destruct v; reflexivity. }
    intros l H. induction H; [constructor|apply sel_hit; auto|apply sel_miss; auto].
    + destruct H as [-> H]. split; [reflexivity|]. now apply IFF.
    + intros z [-> N]. apply (H x). split; [reflexivity|]. now apply IFF.
Qed.
Print Assumptions C136_classes.

Definition argv1 := ["sim"; "+foo=1,yes"; ""; "+UVM_TESTNAME=t1"; "+foo=5"; "-uvmX"; "+fo"].
Example C136_example :
  get_arg_values argv1 "+foo=" = ["1,yes"; "5"] /\ get_arg_value argv1 "+foo=" = (2%nat, ["1,yes"]) /\
  get_arg_matches (fun _ => None) argv1 "+fo" = ["+foo=1,yes"; "+foo=5"; "+fo"] /\
  get_arg_matches (fun p => Some (fun a => starts p a)) argv1 "/+foo=/" = ["+foo=1,yes"; "+foo=5"] /\
  get_arg_matches (fun p => Some (fun a => starts p a)) argv1 "/+foo/" = ["+foo=1,yes"; "+foo=5"; "+fo"] /\
  extract_args argv1 = (["sim"; "+foo=1,yes"; "+UVM_TESTNAME=t1"; "+foo=5"; "-uvmX"; "+fo"], ["+"; "+"; "+"; "+"], ["+UVM_TESTNAME=t1"; "-uvmX"]).
Proof. repeat split. Qed.

(** ** C137: +uvm_set_action *)
Local Open Scope Z_scope.
(** Creating components, one after the other, under one command line. *)
Definition create_all (is_match : string -> string -> bool) (values : list string) (names : list string) : list (option (list told)) :=
  snd (fold_left (fun '(cache, outs) n => let (c, o) := set_cl_action is_match values cache n in (c, outs ++ [o])) names (None, [])).
Lemma create_all_eq : forall is_match values names,
  create_all is_match values names =
  map (fun n => match parse_actions values with Some l => Some (flat_map (apply_action is_match n) l) | None => None end) names.
Proof.
  intros m values names. unfold create_all.
  enough (H : forall cache outs, (cache = None \/ cache = parse_actions values) ->
    snd (fold_left (fun '(cache, outs) n => let (c, o) := set_cl_action m values cache n in (c, outs ++ [o])) names (cache, outs)) =
    outs ++ map (fun n => match parse_actions values with Some l => Some (flat_map (apply_action m n) l) | None => None end) names) by (exact (H None [] (or_introl eq_refl))).
  induction names as [|n names IH]; intros cache outs C; cbn; [now rewrite app_nil_r|].
  assert (E : (match cache with Some l => Some l | None => parse_actions values end) = parse_actions values) by (destruct C as [->|C]; [reflexivity|rewrite C; destruct (parse_actions values); reflexivity]).
  assert (E2 : set_cl_action m values cache n = (parse_actions values, match parse_actions values with Some l => Some (flat_map (apply_action m n) l) | None => None end)).
  { unfold set_cl_action. rewrite E. destruct (parse_actions values); reflexivity. }
  rewrite E2. rewrite IH by auto. rewrite <- app_assoc. reflexivity.
Qed.
(** The lines are written with commas between the fields; no line is too short. Then every
    component, in whatever order they are created, is told what each line says, in order. *)
Theorem C137_told : forall is_match fss names, Forall Fields fss -> (forall fs, In fs fss -> ~ ActShort fs) ->
  exists outs, create_all is_match (map line fss) names = map Some outs /\
  Forall2 (fun name out => exists tss, Forall2 (ActTells is_match name) fss tss /\ out = List.concat tss) names outs.
Proof.
  intros m fss names F NS. rewrite create_all_eq. induction names as [|n names (outs & E & H)]; [exists []; repeat constructor|].
  destruct (parse_actions_tells m n fss F NS) as (l & tss & P & T & C).
  exists (List.concat tss :: outs). cbn [map]. rewrite E, P, C. split; [reflexivity|constructor; eauto].
Qed.
Print Assumptions C137_told.
(** What a line says is determined. *)
Theorem C137_determined : forall is_match name fs t t', ActTells is_match name fs t -> ActTells is_match name fs t' -> t = t'.
Proof.
  intros m name fs t t' H H'.
  assert (I0 : forall v, SevCode "UVM_INFO" v -> v = 0). { intros v V. eapply SevCode_det; [exact V|]. left. left. auto. }
  destruct H; inversion H'; subst; try reflexivity; try congruence;
    repeat match goal with
    | A : ActCode ?t ?a, B : ActCode ?t ?b |- _ => pose proof (ActCode_det _ _ _ A B); subst; clear B
    | A : SevCode ?t ?a, B : SevCode ?t ?b |- _ => pose proof (SevCode_det _ _ _ A B); subst; clear B
    end; try reflexivity; try congruence;
    try (match goal with A : SevCode "UVM_INFO" ?v |- _ => pose proof (I0 _ A) end; congruence);
    unfold ALL in *; try congruence; try discriminate.
Qed.
Print Assumptions C137_determined.
(** A line with too few fields makes the creation of every component raise. *)
Theorem C137_short : forall is_match fss fs names, Forall Fields fss -> In fs fss -> ActShort fs ->
  create_all is_match (map line fss) names = map (fun _ => None) names.
Proof.
  intros m fss fs names F I SH. rewrite create_all_eq, (parse_actions_short fss fs F I SH). reflexivity.
Qed.
Print Assumptions C137_short.
Definition star (c n : string) : bool := String.eqb c "*" || String.eqb c n.
(** UVM_INFO and UVM_NO_ACTION are turned down; a word that is no severity is taken as -1. *)
Example C137_example :
  create_all star ["*,ID,UVM_ERROR,UVM_DISPLAY|UVM_EXIT"; "a,_ALL_,_ALL_,UVM_LOG"; "*,_ALL_,UVM_INFO,UVM_COUNT"; "*,_ALL_,UVM_ERROR,UVM_NO_ACTION"; "b,X,UVM_INFOS,UVM_STOP,more"] ["a"; "b"]
  = [Some [SevIdAction 2 "ID" 9; SevAction 0 2; SevAction 1 2; SevAction 2 2; SevAction 3 2];
     Some [SevIdAction 2 "ID" 9; SevIdAction (-1) "X" 32]] /\
  create_all star ["*,_ALL_,UVM_ERROR"] ["a"] = [None].
Proof. split; reflexivity. Qed.

(** ** C138: +uvm_set_severity *)
Theorem C138_told : forall is_match fss name, Forall Fields fss ->
  exists tss, Forall2 (SevTells is_match name) fss tss /\ set_cl_sev is_match (map line fss) name = List.concat tss.
Proof. intros. now apply parse_sevs_tells. Qed.
Print Assumptions C138_told.
Theorem C138_determined : forall is_match name fs t t', SevTells is_match name fs t -> SevTells is_match name fs t' -> t = t'.
Proof.
  intros m name fs t t' H H'.
  assert (I0 : forall v, SevCode "UVM_INFO" v -> v = 0). { intros v V. eapply SevCode_det; [exact V|]. left. left. auto. }
  destruct H; inversion H'; subst; try reflexivity; try congruence;
    repeat match goal with
    | A : SevName ?t ?a, B : SevName ?t ?b |- _ => pose proof (SevName_det _ _ _ A B); subst; clear B
    | A : SevCode ?t ?a, B : SevCode ?t ?b |- _ => pose proof (SevCode_det _ _ _ A B); subst; clear B
    end; try reflexivity; try congruence;
    try (match goal with A : SevCode "UVM_INFO" ?v |- _ => pose proof (I0 _ A) end; congruence);
    unfold ALL in *; try congruence; try discriminate;
    try (cbn in *; congruence);
    exfalso; match goal with N : forall z, ~ SevName ?n z, A : SevName ?n _ |- _ => eapply N; exact A end.
Qed.
Print Assumptions C138_determined.
Example C138_example :
  set_cl_sev star ["*,ID,UVM_ERROR,UVM_WARNING"; "a,_ALL_,_ALL_,UVM_INFO"; "*,_ALL_,UVM_INFO,UVM_ERROR"; "*,ID,UVM_ERROR,ERROR"; "a,b,c"; "a,J,_ALL_,UVM_FATAL"] "a"
  = [SevIdOver 2 "ID" 1; SevOver 0 0; SevOver 1 0; SevOver 2 0; SevOver 3 0; SevIdOver 0 "J" 3; SevIdOver 1 "J" 3; SevIdOver 2 "J" 3; SevIdOver 3 "J" 3].
Proof. reflexivity. Qed.

(** ** C139: +uvm_set_verbosity *)
(** All lines well formed: a component gets at once what is for it and has no delay, in order; it
    keeps those for other phases; the root notes the timed ones. *)
Theorem C139_told : forall is_match to_int first top name fss ss, Forall Fields fss -> Forall2 (VGood to_int) fss ss ->
  set_cl_verb is_match to_int first top name (map line fss) =
  Some (VOut (map said (filter (AtOnce is_match name) ss)) (filter (Kept is_match name) ss)
             (if top then filter (fun s => String.eqb (v_phase s) "time") ss else [])).
Proof.
  intros m ti first top name fss ss F G. unfold set_cl_verb.
  apply (verb_loop_good m ti first top name (map line fss) ss) with (pre := []) (o := vnone).
  clear -F G. induction G as [|fs s fss ss G1 G IH]; [constructor|]. inversion F; subst. constructor; [eauto|now apply IH].
Qed.
Print Assumptions C139_told.
(** A kept setting makes the first phase of the component raise. *)
Theorem C139_later : forall is_match to_int first top name fss ss o s, Forall Fields fss -> Forall2 (VGood to_int) fss ss ->
  set_cl_verb is_match to_int first top name (map line fss) = Some o ->
  (apply_later (later o) = None <-> exists s, In s ss /\ Kept is_match name s = true) /\
  (In s ss -> Kept is_match name s = true -> v_phase s <> "time").
Proof.
  intros m ti first top name fss ss o s F G E. rewrite (C139_told _ _ _ _ _ _ _ F G) in E. injection E as <-. cbn [later]. split.
  - split.
    + destruct (filter (Kept m name) ss) as [|x l] eqn:K; [discriminate|]. intros _. exists x. apply filter_In. rewrite K. now left.
    + intros (x & I & K). assert (J : In x (filter (Kept m name) ss)) by (apply filter_In; auto). destruct (filter (Kept m name) ss); [contradiction|reflexivity].
  - intros _ K T. unfold Kept in K. rewrite T in K. rewrite andb_false_r in K. discriminate.
Qed.
Print Assumptions C139_later.
(** For the first component, a malformed line anywhere but in the last place raises. *)
Theorem C139_malformed : forall is_match to_int top name fss1 fs fss2, Forall Fields (fss1 ++ fs :: fss2) -> VBad fs -> fss2 <> [] ->
  set_cl_verb is_match to_int true top name (map line (fss1 ++ fs :: fss2)) = None.
Proof.
  intros m ti top name fss1 fs fss2 F B N. unfold set_cl_verb.
  assert (Ff : Fields fs) by (apply (proj1 (Forall_forall _ _) F); apply in_elt).
  eapply verb_loop_bad with (k := List.length fss1) (fs := fs); auto; try lia.
  - rewrite map_length, app_length. cbn. destruct fss2; [contradiction|cbn; lia].
  - rewrite map_app, nth_error_app2 by (rewrite map_length; lia). now rewrite map_length, Nat.sub_diag.
Qed.
Print Assumptions C139_malformed.
Definition digit0 (s : string) : option Z := if String.eqb s "0" then Some 0 else if String.eqb s "50" then Some 50 else if String.eqb s "80" then Some 80 else None.
Example C139_example :
  set_cl_verb star digit0 true false "a" ["*,_ALL_,UVM_HIGH,build"; "a,ID,LOW,time,50"; "a,ID,NONE,,0"; "b,_ALL_,FULL,run"; "a,_ALL_,DEBUG,run"]
  = Some (VOut [Verb 300; IdVerb "ID" 0] [Setting "a" "_ALL_" 500 "run" 0] []).
Proof. reflexivity. Qed.
(** A malformed line in the last place: the first component skips it, all others are set to the
    level -1 and show nothing. *)
Example C139_limit :
  set_cl_verb star digit0 true false "a" ["*,_ALL_,UVM_HIHG,build"] = Some vnone /\
  set_cl_verb star digit0 false false "b" ["*,_ALL_,UVM_HIHG,build"] = Some (VOut [Verb (-1)] [] []).
Proof. split; reflexivity. Qed.

(** ** C140: timed verbosity settings *)
(** The timed settings, earliest first, equal ones in the order given; each is applied after the
    difference from the offset before it, not at its offset. *)
Theorem C140_times : forall l,
  let out := fork_time_settings l in
  let s := map snd out in
  Permutation s l /\ StronglySorted (fun a b => v_off a <= v_off b) s /\
  (forall k, filter (fun x => v_off x =? k) s = filter (fun x => v_off x =? k) l) /\
  forall i t x, nth_error out i = Some (t, x) -> t = v_off x - off_before s i.
Proof.
  intros l out s. unfold s, out, fork_time_settings. destruct (sorted_spec l) as [A B]. destruct (fork_spec (sorted l) 0) as [M N].
  rewrite M. repeat match goal with |- _ /\ _ => split end; auto using sorted_stable.
  intros i t x H. rewrite (N _ _ _ H). destruct i; reflexivity.
Qed.
Print Assumptions C140_times.
(** So a setting is applied on time just when it is the first or the one before it has offset 0. *)
Theorem C140_on_time : forall l i t x, nth_error (fork_time_settings l) i = Some (t, x) ->
  (t = v_off x <-> i = 0%nat \/ exists y u, nth_error (fork_time_settings l) (i - 1) = Some (u, y) /\ v_off y = 0).
Proof.
  intros l i t x H. destruct (C140_times l) as (_ & _ & _ & T). rewrite (T _ _ _ H).
  destruct i as [|i]; cbn [off_before]; [split; [auto|lia]|].
  replace (S i - 1)%nat with i by lia. rewrite nth_error_map.
  destruct (nth_error (fork_time_settings l) i) as [[u y]|] eqn:E; cbn.
  - split; [intros; right; exists y, u; split; [reflexivity|lia]|]. intros [?|(y' & u' & E' & O)]; [discriminate|]. injection E' as <- <-. lia.
  - apply nth_error_None in E. assert (S i < List.length (fork_time_settings l))%nat by (apply nth_error_Some; congruence). lia.
Qed.
Print Assumptions C140_on_time.
Example C140_example :
  map (fun p => (fst p, v_verb (snd p))) (fork_time_settings [Setting "*" "_ALL_" 100 "time" 800; Setting "*" "_ALL_" 500 "time" 300; Setting "*" "_ALL_" 200 "time" 1000])
  = [(300, 500); (500, 100); (200, 200)].
Proof. reflexivity. Qed.

(** ** C141: +uvm_set_config_int and +uvm_set_config_string *)
Theorem C141_config : forall num l, Forall carg_ok l ->
  let '(es, ok) := do_config_settings num (map carg_text l) in
  if ok then exists e1 e2, es = e1 ++ e2 /\ Forall2 (fun fs e => IntEff num fs (Some e)) (int_fields l) e1 /\ Forall2 StrEff (str_fields l) e2
  else exists done fs rest, int_fields l = done ++ fs :: rest /\ Forall2 (fun fs e => IntEff num fs (Some e)) done es /\ IntEff num fs None.
Proof.
  intros num l OK. destruct (cfg_split l OK) as (I & T & FI & FT). unfold do_config_settings. rewrite I, T.
  pose proof (process_ints num _ FI) as PI. destruct (process_all num true (map line (int_fields l))) as [es ok].
  destruct (process_strs num _ FT) as (e2 & E2 & P2). rewrite E2. destruct PI as (d & r & E & D & R). destruct ok.
  - subst r. rewrite app_nil_r in E. subst d. eauto.
  - destruct R as (fs & r' & -> & X). exists d, fs, r'. auto.
Qed.
Print Assumptions C141_config.
(** The value of a line is determined. *)
Theorem C141_determined : forall num s v w, IntText num s v -> IntText num s w -> v = w.
Proof.
  assert (KEY : forall p q x y s, In p ["'b"; "0b"; "'o"; "'d"; "'h"; "'x"; "0x"] -> In q ["'b"; "0b"; "'o"; "'d"; "'h"; "'x"; "0x"] ->
    s = (p ++ x)%string -> s = (q ++ y)%string -> p = q /\ x = y).
  { intros p q x y s P Q -> E. cbn in P, Q.
    repeat (destruct P as [<-|P]; [repeat (destruct Q as [<-|Q]; [cbn in E; first [discriminate|injection E as ->; auto]|]); contradiction|]). contradiction. }
  assert (IN : forall p b, In (p, b) [("'b", 2); ("0b", 2); ("'o", 8); ("'d", 10); ("'h", 16); ("'x", 16); ("0x", 16)] -> In p ["'b"; "0b"; "'o"; "'d"; "'h"; "'x"; "0x"]).
  { intros p b H. apply (in_map fst) in H. exact H. }
  assert (FUN : forall p b b', In (p, b) [("'b", 2); ("0b", 2); ("'o", 8); ("'d", 10); ("'h", 16); ("'x", 16); ("0x", 16)] ->
     In (p, b') [("'b", 2); ("0b", 2); ("'o", 8); ("'d", 10); ("'h", 16); ("'x", 16); ("0x", 16)] -> b = b').
  { intros p b b' H H'. cbn in H, H'. intuition congruence. }
  intros num s v w H H'. destruct H as [p b x I NE|s N].
  - remember (p ++ x)%string as s eqn:S1. destruct H' as [q b' y I' NE'|s' N'].
    + destruct (KEY p q x y (p ++ x)%string) as [<- <-]; eauto. now rewrite (FUN _ _ _ I I').
    + exfalso. apply NE. eapply N'; eauto.
  - remember s as s0 eqn:S0. destruct H' as [q b' y I' NE'|s' N']; [|reflexivity].
    exfalso. apply NE'. eapply N; eauto.
Qed.
Print Assumptions C141_determined.
Definition num1 (b : Z) (s : string) : option Z := if String.eqb s "10" then Some b else None.
Example C141_example :
  do_config_settings num1 (map carg_text [ArgStr false ["*"; "s"; "0x10"]; ArgInt true ["*.a"; "n"; "'h10"]; ArgOther "+UVM_TESTNAME=t"; ArgInt false ["*"; "m"; "10"]; ArgInt false ["*"; "m"]])
  = ([SetCfg "*.a" "n" (CInt 16); SetCfg "*" "m" (CInt 10); Complain; SetCfg "*" "s" (CStr "0x10")], true) /\
  do_config_settings num1 ["+uvm_set_config_int=*,a,10"; "+uvm_set_config_int=*,b,ten"; "+uvm_set_config_string=*,s,x"] = ([SetCfg "*" "a" (CInt 10)], false).
Proof. split; reflexivity. Qed.
(** Without its equals sign the option is also taken, and loses its first character. *)
Example C141_limit : do_config_settings num1 ["+uvm_set_config_int*.a,n,10"] = ([SetCfg ".a" "n" (CInt 10)], true).
Proof. reflexivity. Qed.

(** ** C142: +UVM_MAX_QUIT_COUNT and +UVM_TIMEOUT *)
(** The quit count: the first value on the line counts, negative means 0; YES or no second field
    lets later settings override it. *)
Theorem C142_quit : forall to_int s n fs rest k, Fields (n :: fs) -> to_int n = Some k -> q_over s <> FFalse ->
  do_max_quit to_int (line (n :: fs) :: rest) s =
  Some (match fs with
        | [] => QSt (Z.max 0 k) FOne
        | f :: _ => if String.eqb f "YES" then QSt (Z.max 0 k) FOne else if String.eqb f "NO" then QSt (Z.max 0 k) FZero else s
        end).
Proof.
  intros ti s n fs rest k F K O. unfold do_max_quit. rewrite split_line by assumption. cbn [fld nth]. rewrite K.
  assert (SM : forall f, set_max_quit_count s k f = QSt (Z.max 0 k) f).
  { intros f. unfold set_max_quit_count. destruct (q_over s); try contradiction; f_equal; destruct (Z.ltb_spec k 0); lia. }
  destruct fs as [|f fs]; cbn [List.length Nat.ltb Nat.leb nth]; rewrite !SM; reflexivity.
Qed.
Print Assumptions C142_quit.
(** NO on the command line protects nothing: a later setting takes effect all the same. Only
    False, given in the code, does. *)
Theorem C142_no_protection : forall to_int values s s' n f, do_max_quit to_int values s = Some s' -> q_over s <> FFalse ->
  q_max (set_max_quit_count s' n f) = Z.max 0 n.
Proof.
  intros ti values s s' n f E O.
  assert (O' : q_over s' <> FFalse).
  { unfold do_max_quit in E. destruct values as [|v vs]; [injection E as <-; assumption|].
    destruct (ti _); [|discriminate].
    assert (SM : forall k g, g <> FFalse -> q_over (set_max_quit_count s k g) <> FFalse).
    { intros k g G. unfold set_max_quit_count. destruct (q_over s) eqn:Q; cbn; congruence. }
    destruct (_ <? _)%nat; [|injection E as <-; apply SM; discriminate].
    destruct (String.eqb _ "YES"); [injection E as <-; apply SM; discriminate|].
    destruct (String.eqb _ "NO"); injection E as <-; [apply SM; discriminate|assumption]. }
  unfold set_max_quit_count. destruct (q_over s'); try contradiction; cbn; destruct (Z.ltb_spec n 0); lia.
Qed.
Print Assumptions C142_no_protection.
Theorem C142_protected : forall to_int values s s', q_over s = FFalse -> do_max_quit to_int values s = Some s' -> s' = s.
Proof.
  intros ti values s s' O E. assert (SM : forall k g, set_max_quit_count s k g = s) by (intros; unfold set_max_quit_count; now rewrite O).
  unfold do_max_quit in E. destruct values; [now injection E|]. destruct (ti _); [|discriminate]. rewrite !SM in E.
  destruct (_ <? _)%nat; [|now injection E]. destruct (String.eqb _ "YES"); [|destruct (String.eqb _ "NO")]; now injection E.
Qed.
Print Assumptions C142_protected.
(** The time-out: the number on the command line is never set. Where the scan finds number and
    word, the word is set; otherwise 0 is. *)
Theorem C142_timeout : forall scan v rest s, t_over s = true ->
  (forall n w, scan v = [TNum n; TStr w] -> do_timeout scan (v :: rest) s = TSt (TStr w) true) /\
  (forall n, scan v = [TNum n] -> do_timeout scan (v :: rest) s = TSt (TNum 0) true).
Proof.
  intros scan v rest s O. split; intros n; [intros w|]; intros E; unfold do_timeout; rewrite E; unfold set_timeout; now rewrite O.
Qed.
Print Assumptions C142_timeout.
Example C142_example :
  do_max_quit digit0 ["50,NO"; "80"] (QSt 0 FTrue) = Some (QSt 50 FZero) /\
  set_max_quit_count (QSt 50 FZero) 7 FTrue = QSt 7 FTrue /\
  do_max_quit digit0 ["80,YES"] (QSt 5 FFalse) = Some (QSt 5 FFalse) /\
  do_max_quit digit0 ["80,no"] (QSt 5 FTrue) = Some (QSt 5 FTrue) /\
  do_timeout (fun _ => [TNum 50; TStr "NO"]) ["50,NO"] (TSt (TNum 9200) true) = TSt (TStr "NO") true.
Proof. repeat split. Qed.
