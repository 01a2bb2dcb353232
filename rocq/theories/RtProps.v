(** Theorems about run_test(). *)
From Coq Require Import List String Arith Bool Lia.
From Verif Require Import Prelude CmdModel CmdSpec CmdProofs CmdProps RtModel RtSpec.
Import ListNotations.
Local Open Scope nat_scope.
Local Open Scope string_scope.
Local Open Scope list_scope.

Lemma mine_app i a b : mine i (a ++ b) = mine i a ++ mine i b.
Proof. unfold mine. now rewrite filter_app, map_app. Qed.
Lemma mine_by i l : mine i (says i l) = l.
Proof. unfold mine, says. induction l as [|x l IH]; auto. cbn. rewrite Nat.eqb_refl. cbn. now rewrite IH. Qed.
Lemma mine_other i j l : i <> j -> mine i (says j l) = [].
Proof. intros N. unfold mine, says. induction l as [|x l IH]; auto. cbn. destruct (Nat.eqb j i) eqn:E; auto. apply Nat.eqb_eq in E. congruence. Qed.
Lemma announce_eq w t : running_test_msg w t = announce w t.
Proof.
  unfold running_test_msg, announce. destruct (string_dec t w) as [->|N]; [now rewrite String.eqb_refl|].
  destruct (String.eqb w t) eqn:E; auto. apply String.eqb_eq in E. congruence.
Qed.
Lemma has_in n s : has n s = true <-> In n (kids s).
Proof. unfold has. destruct (in_dec string_dec n (kids s)); split; auto; discriminate. Qed.

Section RunTest.
Context (argv : list string) (make : string -> option string) (args : nat -> string).
Context (vs : list string) (VS : Names argv vs).
Notation W i := (wanted vs (args i)).
Notation M i := (warning vs (args i)).
Lemma choose_eq arg : choose argv arg = (wanted vs arg, given vs, warning vs arg).
Proof.
  unfold choose. assert (get_arg_values argv "+UVM_TESTNAME=" = vs) as -> by (now apply C136_values).
  destruct vs as [|v [|v' l]]; reflexivity.
Qed.

(** where a call is, and what it has done *)
Definition told (i : nat) (p : place) (k : list string) (m : list what) : Prop :=
  match p with
  | Idle | AwInit => m = []
  | AwCreate n b => n = W i /\ b = given vs /\ W i <> "" /\ m = M i
  | AwCheck n o => n = W i /\ ((W i = "" /\ o = None /\ m = M i) \/
                     (W i <> "" /\ In top k /\ exists t, o = Some t /\ make (W i) = Some t /\ m = M i ++ [Made t true]))
  | AwStarted | AwPhases => (W i = "" /\ m = M i ++ [Running Plain; Phases]) \/
                     (W i <> "" /\ exists t, make (W i) = Some t /\ m = M i ++ [Made t true; Running (announce (W i) t); Phases])
  | Ended => exists x, Story make vs (W i) x /\ m = M i ++ x
  end.
Definition inv (s : state) (os : list (nat * what)) : Prop :=
  NoDup (kids s) /\ (forall i, told i (pc s i) (kids s) (mine i os)) /\
  List.length (filter made os) = (if existsb made os then 1 else 0) /\ (existsb made os = true -> In top (kids s)).

Lemma told_more i p k n m : told i p k m -> told i p (k ++ [n]) m.
Proof.
  destruct p; cbn; auto. intros (E & [X|(A & B & C)]); split; auto. right. split; auto. split; auto. apply in_or_app. auto.
Qed.
Lemma made_by i l : filter made (says i l) = says i (filter (fun w => made (0, w)) l).
Proof. unfold says. induction l as [|x l IH]; auto. cbn. rewrite IH. change (made (i, x)) with (made (0, x)). now destruct (made (0, x)). Qed.

(** a call goes on without making a test *)
Lemma go i p l s os : inv s os -> filter (fun w => made (0, w)) l = [] -> told i p (kids s) (mine i os ++ l) ->
  inv (at_ s i p) (os ++ says i l).
Proof.
  intros (ND & T & C & D) F H.
  assert (E : existsb made (says i l) = false).
  { pose proof (made_by i l) as X. rewrite F in X. clear -X. induction (says i l) as [|a r IH]; auto. cbn in *. destruct (made a); auto. discriminate. }
  split; auto. split; [|split].
  - intros j. cbn. unfold upd. rewrite mine_app. destruct (Nat.eqb j i) eqn:EJ.
    + apply Nat.eqb_eq in EJ. subst j. now rewrite mine_by.
    + apply Nat.eqb_neq in EJ. rewrite mine_other, app_nil_r; auto.
  - rewrite filter_app, existsb_app, made_by, F, E. cbn [says map]. now rewrite app_nil_r, orb_false_r.
  - rewrite existsb_app, E, orb_false_r. apply D.
Qed.
Lemma warning_made i : filter (fun w => made (0, w)) (M i) = [].
Proof. unfold warning. destruct vs as [|v [|v' l]]; reflexivity. Qed.

Lemma inv_step s os l : inv s os -> inv (fst (step argv make args true s l)) (os ++ snd (step argv make args true s l)).
Proof.
  intros I. assert (I' := I). destruct I as (ND & T & C & D).
  destruct l as [i|i|n| |]; cbn [step].
  - destruct (pc s i) eqn:P; cbn [fst snd]; rewrite ?app_nil_r; auto.
    replace os with (os ++ says i []) by (cbn; now rewrite app_nil_r). apply go; auto. specialize (T i). rewrite P in T. cbn in *. now rewrite T.
  - specialize (T i). unfold resume. destruct (pc s i) as [| |n b|n o| | |] eqn:P; cbn [fst snd]; rewrite ?app_nil_r; auto; cbn in T.
    + rewrite choose_eq. destruct (String.eqb (W i) "") eqn:EW.
      * apply String.eqb_eq in EW. apply go; auto; [apply warning_made|]. rewrite T. cbn. split; auto.
      * apply String.eqb_neq in EW. destruct (has top s) eqn:H; apply go; auto.
        -- rewrite filter_app, warning_made. reflexivity.
        -- rewrite T. cbn. exists [Fatal TTINST]. split; auto. now constructor.
        -- apply warning_made.
        -- rewrite T. cbn. auto.
    + destruct T as (-> & -> & NW & TM). destruct (make (W i)) as [t|] eqn:EM.
      * destruct (built s) eqn:EB; cbn [andb].
        { apply go; auto. rewrite TM. cbn. eexists. split; [|reflexivity]. now apply S_late with t. }
        destruct (has top s) eqn:H.
        { apply go; auto. rewrite TM. cbn. eexists. split; [|reflexivity]. now apply S_clash with t. }
        cbn [fst snd app]. assert (N : ~ In top (kids s)) by (rewrite <- has_in; congruence).
        assert (EO : existsb made os = false). { destruct (existsb made os); auto. destruct N. auto. }
        split; [|split; [|split]].
        -- cbn [kids]. apply NoDup_Add with (a := top) (l := kids s); auto. rewrite <- (app_nil_r (kids s)) at 1. apply Add_app.
        -- intros j. cbn [kids pc]. unfold upd. rewrite mine_app. destruct (Nat.eqb j i) eqn:EJ.
           ++ apply Nat.eqb_eq in EJ. subst j. rewrite mine_by, TM. cbn. split; auto. right. split; auto. split; [apply in_or_app; cbn; auto|]. eauto.
           ++ apply Nat.eqb_neq in EJ. rewrite mine_other, app_nil_r by auto. apply told_more. destruct I' as (_ & T' & _). apply T'.
        -- rewrite filter_app, existsb_app, app_length, C, EO. reflexivity.
        -- intros _. cbn [kids]. apply in_or_app. cbn. auto.
      * apply go; auto. rewrite TM. cbn. eexists. split; [|reflexivity]. now apply S_unknown.
    + destruct T as (-> & [(EW & -> & TM)|(NW & IT & t & -> & EM & TM)]).
      * rewrite EW. cbn [String.eqb]. destruct (kids s) eqn:EK; apply go; auto; rewrite TM; cbn; rewrite ?EW.
        -- eexists. split; [|reflexivity]. now apply S_none.
        -- auto.
      * destruct (kids s) eqn:EK; [destruct IT|]. destruct (String.eqb (W i) "") eqn:EW; [apply String.eqb_eq in EW; congruence|].
        apply go; auto. rewrite TM, announce_eq. cbn. right. split; auto. exists t. split; auto. now rewrite <- app_assoc.
    + replace os with (os ++ says i []) by (cbn; now rewrite app_nil_r). apply go; auto. now rewrite app_nil_r.
    + destruct (all_done s); cbn [fst snd]; rewrite ?app_nil_r; auto. apply go; auto. cbn.
      destruct T as [(EW & ->)|(NW & t & EM & ->)]; (eexists; split; [|rewrite <- app_assoc; reflexivity]); [now apply S_plain|now apply S_test].
  - destruct (_ || _) eqn:X; cbn [fst snd]; rewrite app_nil_r; auto. apply orb_false_iff in X. destruct X as [_ X].
    assert (N : ~ In n (kids s)) by (rewrite <- has_in; congruence). split; [|split; [|split]]; cbn [kids pc]; auto.
    + apply NoDup_Add with (a := n) (l := kids s); auto. rewrite <- (app_nil_r (kids s)) at 1. apply Add_app.
    + intros i. apply told_more. apply T.
    + intros H. apply in_or_app. auto.
  - cbn [fst snd]. rewrite app_nil_r. repeat split; auto.
  - cbn [fst snd]. rewrite app_nil_r. repeat split; auto.
Qed.
Lemma inv_run ls : let '(s, os) := run argv make args true ls in inv s os.
Proof.
  unfold run. destruct (run_machine _ _ ls) as [s os] eqn:E.
  assert (H : forall l s0 o0, inv s0 o0 -> inv (fst (run_machine (step argv make args true) s0 l)) (o0 ++ snd (run_machine (step argv make args true) s0 l))).
  { clear E. induction l as [|x l IH]; intros s0 o0 I; cbn [run_machine]; [cbn; now rewrite app_nil_r|].
    pose proof (inv_step s0 o0 x I) as J. destruct (step argv make args true s0 x) as [s1 o1]. cbn [fst snd] in J.
    specialize (IH s1 (o0 ++ o1) J). destruct (run_machine _ s1 l) as [s2 o2]. cbn in *. now rewrite app_assoc. }
  specialize (H ls state0 []). rewrite E in H. apply H. split; [constructor|]. split; [intros i; reflexivity|]. split; [reflexivity|discriminate].
Qed.

(** ** C228: what a call does, however many are under way: the warning about several names, then
    one of the stories; all of it once the call has ended. *)
Theorem C228_story ls i : let '(s, os) := run argv make args true ls in
  (mine i os = [] \/ exists x rest, Story make vs (W i) (x ++ rest) /\ mine i os = M i ++ x) /\
  (pc s i = Ended -> exists x, Story make vs (W i) x /\ mine i os = M i ++ x).
Proof.
  pose proof (inv_run ls) as H. destruct (run argv make args true ls) as [s os]. destruct H as (_ & T & _). specialize (T i).
  split; [|intros E; now rewrite E in T].
  destruct (pc s i) as [| |n b|n o| | |]; cbn in T; auto; right.
  - destruct T as (_ & _ & NW & ->). exists [], [Fatal TTINST]. rewrite app_nil_r. split; auto. now constructor.
  - destruct T as (_ & [(EW & _ & ->)|(NW & _ & t & _ & EM & ->)]).
    + exists [], [Fatal NOCOMP]. rewrite app_nil_r. split; auto. now apply S_none.
    + exists [Made t true], [Running (announce (W i) t); Phases; Summary]. split; auto. now apply S_test.
  - destruct T as [(EW & ->)|(NW & t & EM & ->)].
    + exists [Running Plain; Phases], [Summary]. split; auto. now apply S_plain.
    + exists [Made t true; Running (announce (W i) t); Phases], [Summary]. split; auto. now apply S_test.
  - destruct T as [(EW & ->)|(NW & t & EM & ->)].
    + exists [Running Plain; Phases], [Summary]. split; auto. now apply S_plain.
    + exists [Made t true; Running (announce (W i) t); Phases], [Summary]. split; auto. now apply S_test.
  - destruct T as (x & SX & ->). exists x, []. rewrite app_nil_r. auto.
Qed.

(** At most one test is ever made, so at most one call that wants a test starts the phases. *)
Theorem C228_one ls : let '(s, os) := run argv make args true ls in
  List.length (filter made os) <= 1 /\ NoDup (kids s) /\
  (forall i j, In Phases (mine i os) -> In Phases (mine j os) -> W i <> "" -> W j <> "" -> i = j).
Proof.
  pose proof (inv_run ls) as H. destruct (run argv make args true ls) as [s os]. destruct H as (ND & T & C & _).
  split; [rewrite C; destruct (existsb made os); lia|]. split; auto.
  assert (PH : forall i, In Phases (mine i os) -> W i <> "" -> exists t, In (i, Made t true) (filter made os)).
  { intros i I NW. assert (exists t, In (Made t true) (mine i os)) as [t J].
    { specialize (T i). assert (NM : ~ In Phases (M i)) by (unfold warning; destruct vs as [|? [|? ?]]; cbn; intuition discriminate).
      destruct (pc s i) as [| |n b|n o| | |]; cbn in T.
      - rewrite T in I. destruct I.
      - rewrite T in I. destruct I.
      - destruct T as (_ & _ & _ & X). rewrite X in I. tauto.
      - destruct T as (_ & [(EW & _)|(_ & _ & t & _ & _ & X)]); [congruence|]. exists t. rewrite X. apply in_or_app. cbn. auto.
      - destruct T as [(EW & _)|(_ & t & _ & X)]; [congruence|]. exists t. rewrite X. apply in_or_app. cbn. auto.
      - destruct T as [(EW & _)|(_ & t & _ & X)]; [congruence|]. exists t. rewrite X. apply in_or_app. cbn. auto.
      - destruct T as (x & SX & X). rewrite X in I. apply in_app_or in I. destruct I as [I|I]; [tauto|].
        destruct SX; cbn in I; try (intuition discriminate); try congruence. exists t. rewrite X. apply in_or_app. cbn. auto. }
    exists t. apply filter_In. split; auto. unfold mine in J. apply in_map_iff in J. destruct J as ([k w] & <- & J). apply filter_In in J.
    destruct J as [J K]. cbn in K. apply Nat.eqb_eq in K. subst k. cbn. exact J. }
  intros i j I J NI NJ. destruct (PH i I NI) as [t A]. destruct (PH j J NJ) as [t' B].
  destruct (filter made os) as [|x [|y l]]; cbn in *; [destruct A| |destruct (existsb made os); lia].
  destruct A as [A|[]], B as [B|[]]. congruence.
Qed.

(** One call that nothing interferes with. *)
Theorem C228_alone s i : pc s i = Idle ->
  snd (run_machine (step argv make args true) s [Call i; Resume i; Resume i; Resume i]) =
  map (pair i) (M i ++
    if string_dec (W i) "" then match kids s with [] => [Fatal NOCOMP] | _ => [Running Plain; Phases] end
    else if in_dec string_dec top (kids s) then [Fatal TTINST]
    else match make (W i) with
         | None => [Fatal (INVTST (given vs))]
         | Some t => if built s then [Fatal ILLCRT] else [Made t true; Running (announce (W i) t); Phases]
         end).
Proof.
  intros P. cbn [run_machine step]. rewrite P. unfold resume at 1. cbn [at_ pc]. rewrite upd_eq, choose_eq.
  assert (HU : forall s0 p, pc (at_ s0 i p) i = p) by (intros; cbn; now rewrite upd_eq).
  assert (RE : forall s0, pc s0 i = Ended -> resume argv make args true s0 i = (s0, [])) by (intros s0 E; unfold resume; now rewrite E).
  assert (RS : forall s0, pc s0 i = AwStarted -> resume argv make args true s0 i = (at_ s0 i AwPhases, [])) by (intros s0 E; unfold resume; now rewrite E).
  destruct (string_dec (W i) "") as [EW|NW].
  - rewrite EW. cbn [String.eqb]. unfold resume at 1. rewrite HU. change (kids (at_ (at_ s i AwInit) i (AwCheck "" None))) with (kids s).
    destruct (kids s); cbn [String.eqb]; [rewrite RE by apply HU|rewrite RS by apply HU]; cbn [app]; rewrite app_nil_r; unfold says; now rewrite <- map_app.
  - destruct (String.eqb (W i) "") eqn:E; [apply String.eqb_eq in E; congruence|]. clear E.
    change (has top (at_ s i AwInit)) with (if in_dec string_dec top (kids s) then true else false).
    destruct (in_dec string_dec top (kids s)) as [I|N].
    { rewrite RE by apply HU. rewrite RE by apply HU. cbn [app]. rewrite app_nil_r. reflexivity. }
    unfold resume at 1. rewrite HU. destruct (make (W i)) as [t|] eqn:EM.
    + change (built (at_ (at_ s i AwInit) i (AwCreate (W i) (given vs)))) with (built s). destruct (built s) eqn:EB; cbn [andb].
      { rewrite RE by apply HU. cbn [app]. rewrite app_nil_r. unfold says. now rewrite <- map_app. }
      change (has top (at_ (at_ s i AwInit) i (AwCreate (W i) (given vs)))) with (if in_dec string_dec top (kids s) then true else false).
      destruct (in_dec string_dec top (kids s)) as [I|_]; [tauto|]. unfold resume. cbn [pc kids]. rewrite upd_eq.
      change (kids (at_ (at_ s i AwInit) i (AwCreate (W i) (given vs)))) with (kids s).
      destruct (kids s ++ [top]) eqn:EK; [destruct (kids s); discriminate|].
      destruct (String.eqb (W i) "") eqn:E; [apply String.eqb_eq in E; congruence|]. rewrite announce_eq. cbn [app]. rewrite app_nil_r.
      unfold says. rewrite map_app. reflexivity.
    + rewrite RE by apply HU. cbn [app]. rewrite app_nil_r. unfold says. now rewrite <- map_app.
Qed.

(** Why a call failed. *)
Theorem C228_reasons dies s l i f : In (i, Fatal f) (snd (step argv make args dies s l)) ->
  match f with
  | TTINST | CLDEXT => In top (kids s)
  | ILLCRT => built s = true
  | INVTST b => exists n, pc s i = AwCreate n b /\ make n = None
  | NOCOMP => kids s = []
  end.
Proof.
  destruct l as [j|j|n| |]; cbn [step].
  - destruct (pc s j); intros [].
  - unfold resume. assert (NM : forall f', ~ In (Fatal f') (M j)) by (intros f'; unfold warning; destruct vs as [|? [|? ?]]; cbn; intuition discriminate).
    assert (B : forall w k, In (i, w) (says j k) -> i = j /\ In w k).
    { unfold says. intros w k H. apply in_map_iff in H. destruct H as (x & E & H). injection E as <- <-. auto. }
    destruct (pc s j) as [| |n b|n o| | |] eqn:P; try (intros []); cbn [snd].
    + rewrite choose_eq. destruct (String.eqb _ _); [|destruct (has top s) eqn:H]; cbn [snd]; intros I; apply B in I; destruct I as [_ I].
      * now apply NM in I.
      * apply in_app_or in I. destruct I as [I|[I|[]]]; [now apply NM in I|]. injection I as <-. now apply has_in.
      * now apply NM in I.
    + destruct (make n) as [t|] eqn:EM; [destruct (built s) eqn:EB; [destruct dies|]; cbn [andb]; destruct (has top s) eqn:H; try destruct dies|];
        cbn [snd]; intros I; apply B in I; destruct I as [E I]; cbn in I;
        repeat (destruct I as [I|I]; [try discriminate; injection I as <-; auto; try (now apply has_in)|]); try destruct I.
      subst j. eauto.
    + destruct (kids s) eqn:EK; [|destruct (String.eqb n ""); [|destruct o]]; cbn [snd]; intros I; apply B in I; destruct I as [_ I]; cbn in I;
        repeat (destruct I as [I|I]; [try discriminate; injection I as <-; auto|]); destruct I.
    + destruct (all_done s); cbn [snd]; [|intros []]. intros I. apply B in I. destruct I as [_ [I|[]]]. discriminate.
  - destruct (_ || _); intros [].
  - intros [].
  - intros [].
Qed.

(** No summary before the phases are all done. *)
Theorem C228_summary dies ls i : ~ In AllDone ls -> ~ In (i, Summary) (snd (run argv make args dies ls)).
Proof.
  intros N. assert (all_done (fst (run argv make args dies ls)) = false /\ ~ In (i, Summary) (snd (run argv make args dies ls))) as [_ H]; auto.
  unfold run. rewrite <- (rev_involutive ls) in *. induction (rev ls) as [|l h IH]; [cbn; auto|]. cbn [rev] in *.
  destruct IH as [D IH]. { intros X. apply N. apply in_or_app. auto. }
  rewrite run_machine_app. destruct (run_machine _ state0 (rev h)) as [s os]. cbn [fst snd run_machine] in *.
  destruct (step argv make args dies s l) as [s' o'] eqn:E. cbn [fst snd].
  assert (NM : forall j, ~ In Summary (M j)) by (intros j; unfold warning; destruct vs as [|? [|? ?]]; cbn; intuition discriminate).
  assert (B : forall w j k, In (i, w) (says j k) -> In w k).
  { unfold says. intros w j k X. apply in_map_iff in X. destruct X as (x & Y & X). injection Y as <- <-. auto. }
  assert (all_done s' = false /\ ~ In (i, Summary) o') as [D' O'].
  { destruct l as [j|j|n| |]; cbn [step] in E.
    - destruct (pc s j); injection E as <- <-; auto.
    - unfold resume in E. rewrite D in E. destruct (pc s j) as [| |n b|n o| | |]; try (injection E as <- <-; auto).
      + rewrite choose_eq in E. destruct (String.eqb _ _); [|destruct (has top s)]; injection E as <- <-; split; auto; intros X; apply B in X.
        * now apply NM in X.
        * apply in_app_or in X. destruct X as [X|[X|[]]]; [now apply NM in X|discriminate].
        * now apply NM in X.
      + destruct (make n); [destruct (built s); cbn [andb] in E; [destruct dies|]; destruct (has top s); try destruct dies|]; injection E as <- <-;
          split; auto; intros X; cbn in X; intuition discriminate.
      + destruct (kids s); [|destruct (String.eqb n ""); [|destruct o]]; injection E as <- <-; split; auto; intros X; cbn in X; intuition discriminate.
    - destruct (_ || _); injection E as <- <-; auto.
    - injection E as <- <-. auto.
    - destruct N. apply in_or_app. cbn. auto. }
  split; auto. intros X. rewrite app_nil_r in X. apply in_app_or in X. tauto.
Qed.
End RunTest.
Print Assumptions C228_summary.
Print Assumptions C228_story.
Print Assumptions C228_one.
Print Assumptions C228_alone.
Print Assumptions C228_reasons.

(** Two calls at once: both find no test yet; the second to make one fails. *)
Definition mk (n : string) : option string := if string_dec n "a" then Some "b" else if string_dec n "c" then Some "c" else None.
Example C228_example :
  snd (run ["+UVM_TESTNAME=a"; "+UVM_TESTNAME=z"] mk (fun _ => "c") true [Call 0; Resume 0; Resume 0; Resume 0; Resume 0; AllDone; Resume 0]) =
    [(0, Multi 2 "a" ["a"; "z"]); (0, Made "b" true); (0, Running (Override "b" "a")); (0, Phases); (0, Summary)] /\
  snd (run [] mk (fun _ => "c") true [Call 0; Call 1; Resume 0; Resume 1; Resume 1; Resume 0; Resume 1]) =
    [(1, Made "c" true); (0, Fatal CLDEXT); (1, Running (Named "c")); (1, Phases)] /\
  snd (run ["+UVM_TESTNAME="] mk (fun _ => "c") true [Call 0; Resume 0; Resume 0]) = [(0, Fatal NOCOMP)] /\
  Names ["+UVM_TESTNAME=a"; "-x"; "+UVM_TESTNAME=z"] ["a"; "z"].
Proof.
  split; [reflexivity|]. split; [reflexivity|]. split; [reflexivity|].
  apply C136_values. reflexivity.
Qed.
(** If fatal messages do not raise, a second run_test() announces a test that is not in the
    hierarchy, starts the phases again and returns at once; a test that is not found ends in an
    exception. *)
Theorem C228_caught_limit :
  snd (run [] mk (fun _ => "c") false [Call 0; Resume 0; Resume 0; Resume 0; AllDone; Call 1; Resume 1; Resume 1; Resume 1; Resume 1; Resume 1]) =
    [(0, Made "c" true); (0, Running (Named "c")); (0, Phases);
     (1, Fatal TTINST); (1, Fatal CLDEXT); (1, Made "c" false); (1, Running (Named "c")); (1, Phases); (1, Summary)] /\
  snd (run [] mk (fun _ => "q") false [NewTop "e"; Call 0; Resume 0; Resume 0; Resume 0]) = [(0, Fatal (INVTST false)); (0, Raised)].
Proof. split; reflexivity. Qed.
Print Assumptions C228_caught_limit.
