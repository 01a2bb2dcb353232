(** C34 - C36: factory overrides. *)
From Coq Require Import List Bool Arith Lia.
From Verif Require Import Prelude FactoryModel FactorySpec FactoryProofs.
Import ListNotations.
Open Scope nat_scope.

(** ** C34: lookups end *)

(** Whatever overrides have been set, by type or by name, cyclic or not: if
    distinct types have distinct names, every request is answered. The answer
    is a type, except that the first loop ever detected may raise IndexError,
    see the refutation below. *)
Theorem C34_by_type_terminates : forall tname pmatch ops pristine req path,
  names_unique tname ->
  exists n, forall fuel, n <= fuel ->
    (exists t, create_by_type tname pmatch fuel pristine (frun tname ops) req path = FType t) \/
    (pristine = true /\
     create_by_type tname pmatch fuel pristine (frun tname ops) req path = FIndexError).
Proof.
  intros tname pmatch ops pristine req path U.
  apply (find_terminates tname pmatch U _ (facinv_run tname ops) path pristine [] req).
Qed.
Print Assumptions C34_by_type_terminates.

Theorem C34_by_name_terminates : forall tname pmatch nmatch ops pristine n path,
  names_unique tname ->
  exists k, forall fuel, k <= fuel ->
    match create_by_name tname pmatch nmatch fuel pristine (frun tname ops) n path with
    | FType _ => True
    | FNone => names (frun tname ops) n = None
    | FIndexError => pristine = true
    | FOut => False
    end.
Proof.
  intros tname pmatch nmatch ops pristine n path U. unfold create_by_name.
  assert (T : forall info req, exists k, forall fuel, k <= fuel ->
    match find tname pmatch fuel pristine (frun tname ops) path info req with
    | FType _ => True
    | FNone => names (frun tname ops) n = None
    | FIndexError => pristine = true
    | FOut => False
    end).
  { intros info req.
    destruct (find_terminates tname pmatch U _ (facinv_run tname ops) path pristine info req) as [k H].
    exists k. intros fuel Hf. destruct (H fuel Hf) as [[t ->]|[-> ->]]; auto. }
  destruct (match path with Some p => _ | None => None end) as [e|].
  - destruct (opt_eqb _ _); [exists 0; auto|apply T].
  - destruct (List.find _ (tovr (frun tname ops))) as [e|]; [apply T|].
    exists 0. intros. destruct (names (frun tname ops) n); auto.
Qed.
Print Assumptions C34_by_name_terminates.

(** After the first loop has been reported, no request fails. *)
Theorem C34_after_first_loop : forall tname pmatch ops req path,
  names_unique tname ->
  exists n, forall fuel, n <= fuel ->
    exists t, create_by_type tname pmatch fuel false (frun tname ops) req path = FType t.
Proof.
  intros tname pmatch ops req path U.
  destruct (find_terminates tname pmatch U _ (facinv_run tname ops) path false [] req) as [n H].
  exists n. intros fuel Hf. destruct (H fuel Hf) as [T|[T _]]; [exact T|discriminate].
Qed.
Print Assumptions C34_after_first_loop.

Lemma self_names : names_unique (fun t => Some t).
Proof. intros x y n [= ->] [= ->]. reflexivity. Qed.

(** The loop 0 -> 1 -> 0 ends in 0 when requested first... *)
Example C34_example :
  create_by_type (fun t => Some t) Nat.eqb 10 true
    (frun (fun t => Some t) [TypeT 0 1 true; TypeT 1 0 true]) 0 None = FType 0.
Proof. reflexivity. Qed.
(** ...but 2 -> 3 -> 0 -> 1 -> 0 raises IndexError on the first request. *)
Theorem C34_index_error_limit : exists ops,
  names_unique (fun t => Some t) /\
  forall fuel, 10 <= fuel ->
    create_by_type (fun t => Some t) Nat.eqb fuel true (frun (fun t => Some t) ops) 2 None = FIndexError.
Proof.
  exists [TypeT 2 3 true; TypeT 3 0 true; TypeT 0 1 true; TypeT 1 0 true].
  split; [exact self_names|]. intros fuel Hf.
  do 10 (destruct fuel as [|fuel]; [lia|]). reflexivity.
Qed.
Print Assumptions C34_index_error_limit.

(** With two types of the same name the loop check misses: types 0 and 2 are
    named 0, types 1 and 3 are named 1; overriding 0 by 3 and 1 by 2, a request
    for 2 goes 2, 3, 2, 3, ... for ever. *)
Definition two_names (t : nat) : option nat := Some (t mod 2).
Theorem C34_duplicate_names_limit : exists ops req, forall fuel pristine,
  create_by_type two_names Nat.eqb fuel pristine (frun two_names ops) req None = FOut.
Proof.
  exists [TypeT 0 3 true; TypeT 1 2 true], 2. intros fuel pristine. unfold create_by_type.
  set (s := frun _ _).
  assert (G : forall fuel info, Forall (fun e => o_orig e = Some 0 \/ o_orig e = Some 1) info ->
    find two_names Nat.eqb fuel pristine s None info 2 = FOut /\
    find two_names Nat.eqb fuel pristine s None info 3 = FOut).
  { clear fuel. induction fuel as [|k IH]; intros info HI; [split; reflexivity|].
    assert (L : forall i r, r = 2 \/ r = 3 -> loop_index i info r = None).
    { clear -HI. induction HI as [|e l He _ IH]; intros i r Hr; cbn; [auto|].
      destruct He as [->| ->], Hr as [->| ->]; cbn; apply IH; auto. }
    split; cbn [find]; rewrite L by auto.
    - change (matches two_names Nat.eqb s None 2) with [Ovr 0 (Some 0) (Some 0) 3].
      cbn [o_type Nat.eqb]. apply IH. apply Forall_app. split; [auto|]. repeat constructor.
    - change (matches two_names Nat.eqb s None 3) with [Ovr 0 (Some 1) (Some 1) 2].
      cbn [o_type Nat.eqb]. apply IH. apply Forall_app. split; [auto|]. constructor; [now right|constructor]. }
  apply G. constructor.
Qed.
Print Assumptions C34_duplicate_names_limit.

(** ** C36: chains are followed to the end *)
Theorem C36_chain : forall tname pmatch ops path req t pristine,
  names_unique tname -> by_type_only ops ->
  resolves pmatch ops path req t ->
  exists n, forall fuel, n <= fuel ->
    create_by_type tname pmatch fuel pristine (frun tname ops) req path = FType t.
Proof.
  intros tname pmatch ops path req t pristine U HB HR.
  destruct (resolves_has_n pmatch ops path req t HR) as [n Hn].
  exists (S n). intros fuel Hf.
  apply (find_resolves tname pmatch U ops path pristine HB n req t [] Hn); [intros ? ? []|lia].
Qed.
Print Assumptions C36_chain.

(** 0 -> 1 by type, 1 -> 2 at path 7 only, 2 -> 2 *)
Example C36_example :
  let ops := [TypeT 0 1 true; InstT 1 2 7; TypeT 2 2 true] in
  resolves Nat.eqb ops (Some 7) 0 2 /\ resolves Nat.eqb ops None 0 1.
Proof.
  split.
  - apply (res_step _ _ _ 0 1 2); [reflexivity|discriminate|].
    apply (res_step _ _ _ 1 2 2); [reflexivity|discriminate|]. now apply res_self.
  - apply (res_step _ _ _ 0 1 1); [reflexivity|discriminate|]. now apply res_none.
Qed.

(** ** C35: precedence *)

(** The first matching instance override beats every type override, and every
    later instance override. *)
Theorem C35_instance_first : forall tname pmatch ops p req t pristine,
  names_unique tname -> by_type_only ops ->
  inst_choice pmatch ops p req = Some t ->
  choice pmatch ops (Some p) t = None ->
  exists n, forall fuel, n <= fuel ->
    create_by_type tname pmatch fuel pristine (frun tname ops) req (Some p) = FType t.
Proof.
  intros tname pmatch ops p req t pristine U HB HI HC.
  apply C36_chain; auto.
  apply (res_step _ _ _ req t t); [cbn; now rewrite HI| |now apply res_none].
  intros ->. cbn in HC. rewrite HI in HC. discriminate.
Qed.
Print Assumptions C35_instance_first.

(** Without a matching instance override, the last replacing type override
    decides. *)
Theorem C35_type_override : forall tname pmatch ops1 ops2 path req t pristine,
  names_unique tname -> by_type_only (ops1 ++ TypeT req t true :: ops2) ->
  (forall p, path = Some p ->
     forall o' t' pat, In (InstT o' t' pat) (ops1 ++ TypeT req t true :: ops2) ->
       o' = req -> pmatch pat p = false) ->
  (forall t' r, In (TypeT req t' r) ops2 -> r = false) ->
  choice pmatch (ops1 ++ TypeT req t true :: ops2) path t = None ->
  exists n, forall fuel, n <= fuel ->
    create_by_type tname pmatch fuel pristine
      (frun tname (ops1 ++ TypeT req t true :: ops2)) req path = FType t.
Proof.
  intros tname pmatch ops1 ops2 path req t pristine U HB HI HL HC.
  set (ops := ops1 ++ TypeT req t true :: ops2) in *.
  assert (TC : type_choice ops req = Some t).
  { unfold type_choice, ops. rewrite fold_left_app. cbn [fold_left].
    assert (E : type_choice1 req (fold_left (type_choice1 req) ops1 None) (TypeT req t true) = Some t).
    { cbn. rewrite Nat.eqb_refl. now destruct (fold_left _ ops1 None). }
    rewrite E. clear -HL. induction ops2 as [|op l IH]; cbn [fold_left]; [auto|].
    assert (type_choice1 req (Some t) op = Some t) as ->.
    { destruct op as [|o t' r| |]; cbn; auto. destruct (Nat.eqb_spec o req) as [->|]; auto.
      rewrite (HL t' r (or_introl eq_refl)). reflexivity. }
    apply IH. intros; eapply HL; right; eauto. }
  assert (CH : choice pmatch ops path req = Some t).
  { unfold choice. destruct path as [p|]; [|exact TC].
    assert (inst_choice pmatch ops p req = None) as ->; [|exact TC].
    specialize (HI p eq_refl). clear -HI. induction ops as [|op l IH]; cbn; [auto|].
    assert (IH' := IH (fun o t p H => HI o t p (or_intror H))).
    destruct op as [| | |o t' pat]; auto.
    destruct (Nat.eqb_spec o req) as [E|]; cbn [andb]; auto.
    rewrite (HI o t' pat (or_introl eq_refl) E). auto. }
  apply C36_chain; auto.
  apply (res_step _ _ _ req t t); [auto| |now apply res_none].
  intros ->. congruence.
Qed.
Print Assumptions C35_type_override.

(** Override 0 -> 1 everywhere, 0 -> 2 at 7, later 0 -> 3 at 7. *)
Example C35_example :
  let ops := [TypeT 0 1 true; InstT 0 2 7; InstT 0 3 7; TypeT 0 4 false; TypeT 0 5 true] in
  inst_choice Nat.eqb ops 7 0 = Some 2 /\ choice Nat.eqb ops (Some 7) 2 = None /\
  choice Nat.eqb ops (Some 8) 0 = Some 5.
Proof. repeat split. Qed.

(** By name the precedence fails: after an instance override of 0 by 2 at path
    7 and a type override of "0" by "1", creating "0" at path 7 gives 1, while
    creating type 0 there gives 2. *)
Theorem C35_by_name_limit : exists ops, forall fuel, 10 <= fuel ->
  create_by_name (fun t => Some t) Nat.eqb Nat.eqb fuel true (frun (fun t => Some t) ops) 0 (Some 7) = FType 1 /\
  create_by_type (fun t => Some t) Nat.eqb fuel true (frun (fun t => Some t) ops) 0 (Some 7) = FType 2.
Proof.
  exists [InstT 0 2 7; Reg 1; TypeN 0 1 true]. intros fuel Hf.
  do 10 (destruct fuel as [|fuel]; [lia|]). split; reflexivity.
Qed.
Print Assumptions C35_by_name_limit.

(** Without overrides by name, requests by name and by type agree: the pool
    maps a name to the first registered type of that name. *)
Theorem C35_by_name : forall tname pmatch nmatch ops req n path pristine t,
  names_unique tname -> by_type_only ops ->
  tname req = Some n -> names (frun tname ops) n = Some req ->
  (forall a, nmatch a a = true) ->
  resolves pmatch ops path req t ->
  exists k, forall fuel, k <= fuel ->
    create_by_name tname pmatch nmatch fuel pristine (frun tname ops) n path = FType t.
Proof.
  intros tname pmatch nmatch ops req n path pristine t U HB HN HP HM HR.
  destruct (resolves_has_n pmatch ops path req t HR) as [h Hh].
  pose proof (choice_ok tname pmatch U ops path req HB) as C.
  pose proof (facinv_run tname ops) as FI.
  set (s := frun tname ops) in *.
  set (f := fun e => match o_name e with
                     | Some m => nmatch m n && match path with Some p => pmatch (o_path e) p | None => false end
                     | None => false end).
  assert (FF : forall (g : ovr -> bool) l, List.find g l = hd_error (filter g l)).
  { intros g. induction l as [|a l IH]; cbn; [auto|]. destruct (g a); auto. }
  assert (IE : match path, names s n with
    | Some p, Some rt =>
        List.find (fun e => match o_name e with
                            | Some m => nmatch m n && pmatch (o_path e) p
                            | None => false
                            end) (iovr s rt)
    | _, _ => None
    end = hd_error (match path with
       | None => []
       | Some p => filter (fun e => match_orig tname req e && pmatch (o_path e) p) (iovr s req)
       end)).
  { rewrite HP. destruct path as [p|]; [|reflexivity]. rewrite FF. f_equal.
    apply filter_ext_in. intros e He. destruct (fi_inst tname s FI req e He) as [A B].
    rewrite B, HN, HM. cbn [andb]. rewrite (match_orig_typed tname U req e req A B).
    now rewrite Nat.eqb_refl. }
  assert (TE : List.find (fun e => opt_eqb (o_name e) (Some n)) (tovr s)
    = hd_error (filter (match_orig tname req) (tovr s))).
  { rewrite FF. f_equal. apply filter_ext_in. intros e He.
    destruct (typed_ovr tname ops HB e He) as (o & A & B).
    rewrite (match_orig_typed tname U o e req A B), B.
    destruct (Nat.eqb_spec o req) as [->|Hne].
    - rewrite HN. cbn. apply Nat.eqb_refl.
    - destruct (tname o) as [m|] eqn:Eo; cbn; [|auto]. apply Nat.eqb_neq. intros ->.
      apply Hne. eapply U; eauto. }
  unfold create_by_name. fold s. rewrite IE, TE. clear IE TE f.
  unfold matches in C.
  assert (STEP : forall e l, matches tname pmatch s path req = e :: l ->
     choice pmatch ops path req = Some (o_type e) ->
     (t = req /\ o_type e = req \/
      o_type e <> req /\
      forall fuel, h < fuel -> find tname pmatch fuel pristine s path [e] (o_type e) = FType t)).
  { intros e l EM CH. inversion Hh as [r H|r H|h' r t' u H Hne H1]; subst.
    - congruence.
    - left. split; [auto|congruence].
    - right. assert (t' = o_type e) by congruence. subst t'. split; [auto|].
      intros fuel Hf. apply (find_resolves tname pmatch U ops path pristine HB h' (o_type e) t [e] H1); [|lia].
      intros e' o' [<-|[]] Ho'. exists (S h'), t. split; [lia|].
      assert (He : In e (matches tname pmatch s path req)) by (rewrite EM; now left).
      assert (o_orig e = Some req).
      { apply in_matches in He as [M [HT|HI]].
        - destruct (typed_ovr tname ops HB e HT) as (o & A & B).
          rewrite (match_orig_typed tname U o e req A B) in M. apply Nat.eqb_eq in M. congruence.
        - apply (fi_inst tname s FI req e HI). }
      assert (o' = req) by congruence. subst. exact Hh. }
  unfold matches in STEP.
  exists (S (S h)). intros fuel Hf.
  destruct (match path with
       | None => []
       | Some p => filter (fun e => match_orig tname req e && pmatch (o_path e) p) (iovr s req)
       end) as [|e l] eqn:EI; cbn [hd_error app] in *.
  - destruct (filter (match_orig tname req) (tovr s)) as [|e l] eqn:ET; cbn [hd_error].
    + rewrite HP. inversion Hh; subst; congruence.
    + destruct (STEP e l eq_refl C) as [[-> E]|[E F]]; [|apply F; lia].
      (* an override of the type by itself: found again as a loop, or as the same override *)
      rewrite E in *. destruct fuel as [|fuel]; [lia|]. cbn [find].
      assert (LO : loop_index 0 [e] req = Some 0).
      { cbn. assert (He : In e (filter (match_orig tname req) (tovr s))) by (rewrite ET; now left).
        apply filter_In in He as [HT M]. destruct (typed_ovr tname ops HB e HT) as (o & A & B).
        rewrite (match_orig_typed tname U o e req A B) in M. apply Nat.eqb_eq in M. subst o.
        rewrite A. cbn. now rewrite Nat.eqb_refl. }
      rewrite LO. destruct pristine; [|reflexivity].
      destruct fuel as [|fuel]; [lia|]. cbn [find_debug loop_index].
      unfold matches. fold s. rewrite EI, ET. cbn [app].
      rewrite E, Nat.eqb_refl. reflexivity.
  - destruct (STEP e (l ++ filter (match_orig tname req) (tovr s)) eq_refl C) as [[-> E]|[E F]].
    + rewrite E, HN. cbn. now rewrite Nat.eqb_refl.
    + destruct (opt_eqb (tname (o_type e)) (Some n)) eqn:EO; [|apply F; lia].
      apply opt_eqb_some in EO. exfalso. apply E. eapply U; eauto.
Qed.
Print Assumptions C35_by_name.

Example C35_by_name_example :
  let ops := [Reg 0; TypeT 0 1 true; InstT 1 2 7] in
  names (frun (fun t => Some t) ops) 0 = Some 0 /\ resolves Nat.eqb ops (Some 7) 0 2.
Proof.
  split; [reflexivity|].
  apply (res_step _ _ _ 0 1 2); [reflexivity|discriminate|].
  apply (res_step _ _ _ 1 2 2); [reflexivity|discriminate|]. now apply res_none.
Qed.
