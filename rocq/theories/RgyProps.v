(** Proxies of classes: C157-C159. *)
From Coq Require Import List Bool Arith Ascii Lia.
From Verif Require Import Prelude FactoryModel FactorySpec FactoryProofs FactoryProps SvModel SvSpec SvProofs SvProps RgyModel RgySpec RgyProofs.
Import ListNotations.
Local Open Scope nat_scope.

Section R.
Context (wkind : nat -> rkind) (wname : nat -> nat) (wclass : nat -> nat) (plain_class : nat -> bool) (proper : nat -> bool).
Context (num : str -> nat) (txt : nat -> str).
Local Notation TN := (tname wname proper).
Local Notation latest := (latest wkind wname wclass plain_class).
Local Notation reached := (reached wkind wname wclass plain_class num).
Local Notation usable := (usable wkind wname wclass plain_class).
Local Notation rrun := (rrun wkind wname wclass plain_class proper num).
Local Notation create := (create wkind wname proper num txt).
Local Notation by_name := (by_name wkind wname proper num txt).

(** * C157: the class created *)
(** Overrides are followed as for the factory; then the class registered last under the name is
    created. *)
Theorem C157_create ops w w' name ctx parent pristine : names_unique TN ->
  let h := rev ops in
  resolves (pmatch txt) (reached h (current h)) (path_no num (object_path name ctx parent)) w w' ->
  exists n, forall fuel, n <= fuel -> snd (create fuel pristine (rrun ops) w name ctx parent) =
    match latest h (wkind w) (wname w) with
    | None => KeyErr
    | Some _ =>
        if kind_eqb (wkind w') (wkind w) then match latest h (wkind w) (wname w') with Some c => Made c | None => KeyErr end
        else match wkind w with Comp => Fatal | Obj => Null end
    end.
Proof.
  intros U h HR. rewrite <- join_is in HR. pose proof (rinv_run wkind wname wclass plain_class proper num ops) as I. fold h in I.
  destruct (C36_chain TN (pmatch txt) _ _ _ _ pristine U (reached_typed _ _ _ _ num h (current h)) HR) as [n Hn].
  exists n. intros fuel Hf. unfold RgyModel.create. rewrite (get_usable _ _ _ _ _ _ _ _ _ I). unfold RgySpec.usable.
  destruct (latest h (wkind w) (wname w)) as [c0|] eqn:EL; [|reflexivity]. cbn [snd].
  rewrite (i_cur _ _ _ _ _ _ _ _ I), (i_facs _ _ _ _ _ _ _ _ I), (Hn fuel Hf). cbn [outcome_of]. unfold instantiate.
  destruct (kind_eqb (wkind w') (wkind w)); [|reflexivity]. rewrite (i_table _ _ _ _ _ _ _ _ I). now destruct (latest h (wkind w) (wname w')).
Qed.

(** Also for classes with equal names, if the factory has no overrides: all their proxies create
    the class that came last. *)
Theorem C157_same_name ops w name ctx parent pristine fuel :
  let h := rev ops in no_override (reached h (current h)) ->
  snd (create (S fuel) pristine (rrun ops) w name ctx parent) = match latest h (wkind w) (wname w) with None => KeyErr | Some c => Made c end.
Proof.
  intros h HN. pose proof (rinv_run wkind wname wclass plain_class proper num ops) as I. fold h in I.
  unfold RgyModel.create. rewrite (get_usable _ _ _ _ _ _ _ _ _ I). unfold RgySpec.usable.
  destruct (latest h (wkind w) (wname w)) as [c0|] eqn:EL; [|reflexivity]. cbn [snd].
  rewrite (i_cur _ _ _ _ _ _ _ _ I), (i_facs _ _ _ _ _ _ _ _ I), no_override_find by auto. cbn [outcome_of]. unfold instantiate.
  rewrite kind_refl, (i_table _ _ _ _ _ _ _ _ I), EL. reflexivity.
Qed.
Corollary C157_later_class ops w v : let h := rev ops in no_override (reached h (current h)) ->
  wkind v = wkind w -> wname v = wname w -> forall name ctx parent name' ctx' parent' pristine fuel,
  snd (create (S fuel) pristine (rrun ops) v name ctx parent) = snd (create (S fuel) pristine (rrun ops) w name' ctx' parent').
Proof. intros h HN HK HW *. rewrite !C157_same_name by exact HN. now rewrite HK, HW. Qed.

(** * C158: names, other factories and resets *)
(** Creation by name goes by the first proxy of that name known to the factory, component or
    object; the class is again the last one. *)
Theorem C158_by_name ops k n path pristine fuel :
  let h := rev ops in no_override (reached h (current h)) ->
  by_name fuel pristine (rrun ops) k n path =
    match first_named TN (reached h (current h)) n with
    | Some w => if kind_eqb (wkind w) k then match latest h k (wname w) with Some c => Made c | None => KeyErr end else Null
    | None => Null
    end.
Proof.
  intros h HN. pose proof (rinv_run wkind wname wclass plain_class proper num ops) as I. fold h in I.
  unfold RgyModel.by_name. rewrite (i_cur _ _ _ _ _ _ _ _ I), (i_facs _ _ _ _ _ _ _ _ I), by_name_none by auto.
  destruct (first_named TN _ n) as [w|]; [|reflexivity]. cbn [outcome_of]. unfold instantiate. now rewrite (i_table _ _ _ _ _ _ _ _ I).
Qed.

Lemma creates_only_reached l f : creates_only l -> forall h, reached (l ++ h) f = reached h f /\ current (l ++ h) = current h /\ forall k n, latest (l ++ h) k n = latest h k n.
Proof.
  induction l as [|o l IH]; intros HC h; [auto|]. destruct (IH (fun x Hx => HC x (or_intror Hx)) h) as (E1 & E2 & E3).
  specialize (HC o (or_introl eq_refl)). destruct o; try destruct HC. cbn. rewrite E1, E2. split; [now destruct (fid_eqb _ _); rewrite app_nil_r|]. auto.
Qed.
Lemma creates_rev l : creates_only l -> creates_only (rev l).
Proof. intros H o Ho. apply H. now apply in_rev. Qed.
(** A factory put in place later does not know the classes registered before: no name is found,
    though the proxies still create. *)
Theorem C158_new_factory ops f ops2 k n path w name ctx parent pristine fuel :
  reached (rev ops) f = [] -> creates_only ops2 ->
  by_name fuel pristine (rrun (ops ++ SetFactory f :: ops2)) k n path = Null /\
  snd (create (S fuel) pristine (rrun (ops ++ SetFactory f :: ops2)) w name ctx parent) =
    match latest (rev ops) (wkind w) (wname w) with None => KeyErr | Some c => Made c end.
Proof.
  intros HF HC. pose proof (creates_only_reached (rev ops2) f (creates_rev _ HC) (SetFactory f :: rev ops)) as (E1 & E2 & E3).
  assert (EH : rev (ops ++ SetFactory f :: ops2) = rev ops2 ++ SetFactory f :: rev ops) by (rewrite rev_app_distr; cbn; now rewrite <- app_assoc).
  assert (ER : reached (rev ops2 ++ SetFactory f :: rev ops) (current (rev ops2 ++ SetFactory f :: rev ops)) = []).
  { rewrite E2. cbn [current]. rewrite E1. cbn [RgySpec.reached]. rewrite HF. now destruct (fid_eqb _ _). }
  assert (HN : no_override (reached (rev ops2 ++ SetFactory f :: rev ops) (current (rev ops2 ++ SetFactory f :: rev ops)))) by (rewrite ER; intros o []).
  split.
  - rewrite C158_by_name; rewrite EH; [|exact HN]. rewrite ER. reflexivity.
  - rewrite C157_same_name; rewrite EH; [|exact HN]. rewrite E3. reflexivity.
Qed.

Lemma tried_app a b : tried (a ++ b) = tried a + tried b.
Proof. induction a as [|o a IH]; cbn; auto. destruct o; cbn; auto. Qed.
Lemma tried_rev a : tried (rev a) = tried a.
Proof. induction a as [|o a IH]; cbn; auto. rewrite tried_app. destruct o; cbn; lia. Qed.
Lemma latest_none l h k n :
  (forall v, tried h <= v < tried (l ++ h) -> plain_class v = true -> wkind v = k -> wname v = n -> False) ->
  latest h k n = None -> latest (l ++ h) k n = None.
Proof.
  induction l as [|o l IH]; intros HV HL; [exact HL|]. 
  assert (IH' : latest (l ++ h) k n = None).
  { apply IH; auto. intros v Hv. apply HV. cbn. destruct o; lia. }
  destruct o; cbn; auto. destruct (plain_class (tried (l ++ h))) eqn:EP; cbn [andb]; auto.
  destruct (kind_eqb (wkind (tried (l ++ h))) k) eqn:EK; cbn [andb]; auto. apply kind_eqb_spec in EK.
  destruct (Nat.eqb_spec (wname (tried (l ++ h))) n) as [EN|EN]; auto.
  destruct (HV (tried (l ++ h))); auto. cbn. rewrite tried_app. lia.
Qed.
(** After a reset of the core service every use of a proxy raises until a class is registered
    under its name again. *)
Theorem C158_reset ops ops2 w : 
  (forall v, tried ops <= v < tried (ops ++ ops2) -> plain_class v = true -> wkind v = wkind w -> wname v = wname w -> False) ->
  let s := rrun (ops ++ ResetCore :: ops2) in
  (forall fuel pristine name ctx parent, create fuel pristine s w name ctx parent = (s, KeyErr)) /\
  (forall w' r, set_type wkind wname proper s w w' r = (s, KeyErr)) /\
  (forall w' p parent, set_inst wkind wname proper num s w w' p parent = (s, KeyErr)).
Proof.
  intros HV s. pose proof (rinv_run wkind wname wclass plain_class proper num (ops ++ ResetCore :: ops2)) as I.
  assert (EH : rev (ops ++ ResetCore :: ops2) = rev ops2 ++ ResetCore :: rev ops) by (rewrite rev_app_distr; cbn; now rewrite <- app_assoc).
  assert (EU : usable (rev (ops ++ ResetCore :: ops2)) w = false).
  { unfold RgySpec.usable. rewrite EH, latest_none; [reflexivity| |reflexivity]. intros v. cbn [tried]. rewrite tried_app. cbn [tried].
    rewrite !tried_rev. intros Hv. apply HV. rewrite tried_app. lia. }
  pose proof (get_usable _ _ _ _ _ _ _ _ w I) as G. rewrite EU in G. fold s in G.
  unfold RgyModel.create, set_type, set_inst. rewrite G. auto.
Qed.

Lemma own_future h j : (forall i, ~ In (SetFactory (Own i)) h) -> resets h < j -> reached h (Own j) = [].
Proof.
  intros HS. assert (HC : current h = Own (resets h) \/ exists i, current h = User i).
  { induction h as [|o h IH]; [now left|]. assert (HS' : forall i, ~ In (SetFactory (Own i)) h) by (intros i Hi; apply (HS i); now right).
    destruct o as [| | | |f|]; cbn; auto. destruct f as [i|i]; [|eauto]. destruct (HS i). now left. }
  clear HC. induction h as [|o h IH]; intros HJ; [reflexivity|]. assert (HS' : forall i, ~ In (SetFactory (Own i)) h) by (intros i Hi; apply (HS i); now right).
  assert (HR : resets h < j) by (cbn in HJ; destruct o; lia). cbn. rewrite (IH HS' HR).
  assert (HC : current h = Own (resets h) \/ exists i, current h = User i).
  { clear -HS'. induction h as [|o h IH]; [now left|]. assert (HS2 : forall i, ~ In (SetFactory (Own i)) h) by (intros i Hi; apply (HS' i); now right).
    destruct o as [| | | |f|]; cbn; auto. destruct f as [i|i]; [|eauto]. destruct (HS' i). now left. }
  destruct HC as [->|[i ->]]; cbn; [|reflexivity]. destruct (Nat.eqb_spec (resets h) j); [lia|reflexivity].
Qed.
(** The reset also drops all overrides. *)
Theorem C158_reset_overrides ops ops2 w name ctx parent pristine fuel : (forall i, ~ In (SetFactory (Own i)) ops) -> news_only ops2 ->
  snd (create (S fuel) pristine (rrun (ops ++ ResetCore :: ops2)) w name ctx parent) =
    match latest (rev ops2 ++ ResetCore :: rev ops) (wkind w) (wname w) with None => KeyErr | Some c => Made c end.
Proof.
  intros HS HN. assert (EH : rev (ops ++ ResetCore :: ops2) = rev ops2 ++ ResetCore :: rev ops) by (rewrite rev_app_distr; cbn; now rewrite <- app_assoc).
  rewrite C157_same_name; rewrite EH; [reflexivity|].
  assert (HN' : news_only (rev ops2)) by (intros o Ho; apply HN; now apply in_rev). clear HN EH.
  assert (HS' : forall i, ~ In (SetFactory (Own i)) (rev ops)) by (intros i Hi; apply (HS i); now apply in_rev).
  assert (Q : current (rev ops2 ++ ResetCore :: rev ops) = Own (S (resets (rev ops))) /\
              no_override (reached (rev ops2 ++ ResetCore :: rev ops) (Own (S (resets (rev ops)))))).
  { induction (rev ops2) as [|o l IH].
    - split; [reflexivity|]. cbn [app RgySpec.reached]. rewrite own_future by (auto; lia). destruct (fid_eqb _ _); intros o [].
    - destruct (IH (fun x Hx => HN' x (or_intror Hx))) as [I1 I2]. specialize (HN' o (or_introl eq_refl)).
      destruct o; try destruct HN'; cbn; split; auto; intros x Hx; apply in_app_or in Hx as [Hx|Hx]; auto.
      + destruct (fid_eqb _ _); [|destruct Hx]. destruct (plain_class _); [|destruct Hx]. destruct Hx as [<-|[]]. eauto.
      + destruct (fid_eqb _ _); destruct Hx. }
  destruct Q as [-> Q]. exact Q.
Qed.

(** * C159: instance overrides relative to a component *)
Lemma literal_plain p : Forall literal p -> Forall plain p.
Proof. apply Forall_impl. intros c H K. apply H. cbn in *. tauto. Qed.
Lemma literal_glob p : Forall literal p -> forall m, glob p m <-> m = p.
Proof.
  induction p as [|c p IH]; intros HL m; [split; [inversion 1; auto|intros ->; constructor]|].
  apply Forall_cons_iff in HL. destruct HL as [HC HL]. unfold literal in HC. cbn in HC. split.
  - intros G. inversion G; subst; try (exfalso; tauto). f_equal. now apply IH.
  - intros ->. constructor; try (intros ->; tauto). now apply IH.
Qed.
Lemma pmatch_literal p q : (forall x, txt (num x) = x) -> Forall literal p -> ~ slash_delimited p -> (pmatch txt (num p) (num q) = true <-> part_of p q).
Proof.
  intros HT HL HS. unfold pmatch. rewrite !HT. destruct (C20_match p q (literal_plain p HL) HS) as (b & -> & Hb). rewrite Hb. split.
  - intros (m & Hm & Hg). apply (literal_glob p HL) in Hg. now subst.
  - intros Hp. exists p. split; auto. now apply literal_glob.
Qed.
Lemma reached_none w l f : sets_none w l -> forall o, In o (reached l f) -> match o with TypeT x _ _ | InstT x _ _ => x <> w | _ => True end.
Proof.
  induction l as [|o l IH]; intros HQ x Hx; [destruct Hx|]. cbn in Hx. apply in_app_or in Hx as [Hx|Hx].
  - apply IH; auto. intros y Hy. apply HQ. now right.
  - destruct (fid_eqb _ _); [|destruct Hx]. specialize (HQ o (or_introl eq_refl)).
    destruct o as [|a b r|a b p pa|a b c d|g|]; try destruct Hx; try (match type of Hx with context [if ?b then _ else _] => destruct b end; [destruct Hx as [<-|[]]; auto|destruct Hx]).
Qed.
Lemma quiet_inst w l : (forall o, In o l -> match o with TypeT x _ _ | InstT x _ _ => x <> w | _ => True end) ->
  (forall p, inst_choice (pmatch txt) l p w = None) /\ type_choice l w = None /\ (forall p l2, inst_choice (pmatch txt) (l ++ l2) p w = inst_choice (pmatch txt) l2 p w) /\
  (forall c, fold_left (type_choice1 w) l c = c).
Proof.
  intros HQ. assert (A : forall p l2, inst_choice (pmatch txt) (l ++ l2) p w = inst_choice (pmatch txt) l2 p w).
  { induction l as [|o l IH]; intros p l2; auto. cbn [app inst_choice]. pose proof (HQ o (or_introl eq_refl)) as H.
    destruct o; try (apply IH; intros; apply HQ; now right). apply Nat.eqb_neq in H. rewrite H. cbn. apply IH. intros; apply HQ; now right. }
  assert (B : forall c, fold_left (type_choice1 w) l c = c).
  { clear A. induction l as [|o l IH]; intros c; auto. cbn [fold_left]. pose proof (HQ o (or_introl eq_refl)) as H.
    assert (E : type_choice1 w c o = c). { destruct o; cbn; auto. apply Nat.eqb_neq in H. now rewrite H. }
    rewrite E. apply IH. intros; apply HQ; now right. }
  split; [intros p; rewrite <- (app_nil_r l), A; reflexivity|]. split; [apply B|auto].
Qed.
Lemma same_current l : same_factory l -> forall h, current (l ++ h) = current h.
Proof.
  induction l as [|o l IH]; intros HS h; auto. cbn. pose proof (HS o (or_introl eq_refl)) as H. rewrite <- (IH (fun x Hx => HS x (or_intror Hx)) h). now destruct o.
Qed.
Lemma reached_app l : forall h f, exists l2, reached (l ++ h) f = reached h f ++ l2 /\ (forall w, sets_none w l -> forall o, In o l2 -> match o with TypeT x _ _ | InstT x _ _ => x <> w | _ => True end).
Proof.
  induction l as [|o l IH]; intros h f; [exists []; split; [now rewrite app_nil_r|intros w _ o []]|].
  destruct (IH h f) as (l2 & E & Q). cbn [app RgySpec.reached]. rewrite E. eexists. rewrite <- app_assoc. split; [reflexivity|].
  intros w HS x Hx. apply in_app_or in Hx as [Hx|Hx]; [apply Q; auto; intros y Hy; apply HS; now right|].
  destruct (fid_eqb _ _); [|destruct Hx]. specialize (HS o (or_introl eq_refl)).
  destruct o as [|a b r|a b p pa|a b c d|g|]; try destruct Hx; try (match type of Hx with context [if ?b then _ else _] => destruct b end; [destruct Hx as [<-|[]]; auto|destruct Hx]).
Qed.

(** The only override for [w] is set for [p] relative to [parent] (its full name), or absolutely;
    then it applies exactly where the path of the new object contains the path of the override. *)
Theorem C159_relative ops1 ops2 w w' p parent name ctx parent2 pristine c c' :
  names_unique TN -> (forall x, txt (num x) = x) ->
  let P := override_path parent p in let Q := object_path name ctx parent2 in
  Forall literal P -> ~ slash_delimited P -> wkind w' = wkind w -> w' <> w ->
  sets_none w ops1 -> sets_none w' ops1 -> sets_none w ops2 -> sets_none w' ops2 -> same_factory ops2 ->
  usable (rev ops1) w = true ->
  let ops := ops1 ++ SetInst w w' p parent :: ops2 in
  latest (rev ops) (wkind w) (wname w) = Some c -> latest (rev ops) (wkind w) (wname w') = Some c' ->
  exists n, forall fuel, n <= fuel ->
    (Q <> [] /\ part_of P Q -> snd (create fuel pristine (rrun ops) w name ctx parent2) = Made c') /\
    (~ (Q <> [] /\ part_of P Q) -> snd (create fuel pristine (rrun ops) w name ctx parent2) = Made c).
Proof.
  intros U HT P Q HL HSl HK HD N1 N1' N2 N2' SF HU ops EC EC'.
  assert (EH : rev ops = rev ops2 ++ SetInst w w' p parent :: rev ops1) by (unfold ops; rewrite rev_app_distr; cbn; now rewrite <- app_assoc).
  assert (R1 : forall x l, sets_none x l -> sets_none x (rev l)) by (intros x l H o Ho; apply H; now apply in_rev).
  assert (SF' : same_factory (rev ops2)) by (intros o Ho; apply SF; now apply in_rev).
  set (h := rev ops) in *. set (f := current h).
  assert (EF : f = current (rev ops1)) by (unfold f; rewrite EH, same_current by auto; reflexivity).
  destruct (reached_app (rev ops2) (SetInst w w' p parent :: rev ops1) f) as (l2 & ER & Q2). rewrite <- EH in ER.
  cbn [RgySpec.reached] in ER. rewrite EF, fid_refl, HU, <- EF in ER. fold P in ER.
  destruct (quiet_inst w _ (reached_none w (rev ops1) f (R1 _ _ N1))) as (A1 & A2 & A3 & A4).
  destruct (quiet_inst w' _ (reached_none w' (rev ops1) f (R1 _ _ N1'))) as (B1 & B2 & B3 & B4).
  destruct (quiet_inst w _ (Q2 w (R1 _ _ N2))) as (C1 & C2 & C3 & C4). destruct (quiet_inst w' _ (Q2 w' (R1 _ _ N2'))) as (D1 & D2 & D3 & D4).
  set (L := reached h f) in *.
  assert (TW : type_choice L w = None) by (unfold type_choice; rewrite ER, !fold_left_app, A4; cbn; apply C4).
  assert (TW' : type_choice L w' = None) by (unfold type_choice; rewrite ER, !fold_left_app, B4; cbn; apply D4).
  assert (IW : forall q, inst_choice (pmatch txt) L q w = if pmatch txt (num P) q then Some w' else None).
  { intros q. rewrite ER, <- app_assoc, A3. cbn [app inst_choice]. rewrite Nat.eqb_refl. cbn [andb]. destruct (pmatch txt (num P) q); auto. }
  assert (IW' : forall q, inst_choice (pmatch txt) L q w' = None).
  { intros q. rewrite ER, <- app_assoc, B3. cbn [app inst_choice]. rewrite (proj2 (Nat.eqb_neq w w')) by auto. cbn [andb]. apply D1. }
  set (path := path_no num Q).
  assert (CW' : choice (pmatch txt) L path w' = None) by (unfold choice; destruct path as [q|]; [now rewrite IW'|exact TW']).
  assert (CW : (Q <> [] /\ part_of P Q -> choice (pmatch txt) L path w = Some w') /\ (~ (Q <> [] /\ part_of P Q) -> choice (pmatch txt) L path w = None)).
  { unfold choice, path, path_no. destruct Q as [|q0 Q'] eqn:EQ; [split; [intros [H _]; congruence|auto]|].
    rewrite IW. pose proof (pmatch_literal P (q0 :: Q') HT HL HSl) as M. destruct (pmatch txt (num P) (num (q0 :: Q'))); split; auto.
    - intros H. destruct H. split; [discriminate|now apply M].
    - intros [_ H]. apply M in H. discriminate. }
  destruct CW as [CW1 CW2].
  assert (DEC : (Q <> [] /\ part_of P Q) \/ ~ (Q <> [] /\ part_of P Q)).
  { destruct Q as [|q0 Q'] eqn:EQ; [right; intros [H _]; congruence|]. pose proof (pmatch_literal P (q0 :: Q') HT HL HSl) as M.
    destruct (pmatch txt (num P) (num (q0 :: Q'))); [left; split; [discriminate|now apply M]|right; intros [_ H]; apply M in H; discriminate]. }
  destruct DEC as [HA|HA].
  - destruct (C157_create ops w w' name ctx parent2 pristine U) as [n Hn].
    { fold h f L. apply (res_step _ _ _ w w' w'); auto. now apply res_none. }
    exists n. intros fuel Hf. split; [intros _|intros X; destruct (X HA)]. rewrite (Hn fuel Hf). fold h. rewrite EC, HK, kind_refl, EC'. reflexivity.
  - destruct (C157_create ops w w name ctx parent2 pristine U) as [n Hn].
    { fold h f L. apply res_none. auto. }
    exists n. intros fuel Hf. split; [intros X; destruct (HA X)|intros _]. rewrite (Hn fuel Hf). fold h. rewrite EC, kind_refl. reflexivity.
Qed.
End R.
Print Assumptions C157_create.
Print Assumptions C157_same_name.
Print Assumptions C157_later_class.
Print Assumptions C158_by_name.
Print Assumptions C158_new_factory.
Print Assumptions C158_reset.
Print Assumptions C158_reset_overrides.
Print Assumptions C159_relative.

(** Paths can be numbered. *)
Fixpoint code (s : str) : nat := match s with [] => 0 | c :: s => S (nat_of_ascii c + code s * 256) end.
Fixpoint decode (fuel n : nat) : str :=
  match fuel, n with
  | S fuel, S n => ascii_of_nat (n mod 256) :: decode fuel (n / 256)
  | _, _ => []
  end.
Lemma code_bounded c : nat_of_ascii c < 256.
Proof. destruct c as [[] [] [] [] [] [] [] []]; vm_compute; repeat constructor. Qed.
Lemma decode_code s : forall fuel, code s <= fuel -> decode fuel (code s) = s.
Proof.
  induction s as [|c s IH]; intros fuel Hf; [now destruct fuel|]. cbn [code] in *. destruct fuel as [|fuel]; [lia|]. cbn [decode].
  pose proof (code_bounded c) as B. rewrite Nat.mod_add, Nat.mod_small, ascii_nat_embedding by lia. f_equal.
  rewrite Nat.div_add, Nat.div_small by lia. cbn [Nat.add]. apply IH. lia.
Qed.
Example C159_numbering : exists (num : str -> nat) (txt : nat -> str), forall x, txt (num x) = x.
Proof. exists code, (fun n => decode n n). intros x. apply decode_code. lia. Qed.

(** Three component classes 10, 11 and 12, the first two under the same name *)
Example C157_example :
  let nm := fun w => nth w [0; 0; 1] 9 in let cl := fun w => nth w [10; 11; 12] 99 in
  let s := rrun (fun _ => Comp) nm cl (fun _ => true) (fun _ => true) code [New; New; New] in
  let mk w := snd (create (fun _ => Comp) nm (fun _ => true) code (fun n => decode n n) 5 true s w [] [] None) in
  mk 0 = Made 11 /\ mk 1 = Made 11 /\ mk 2 = Made 12 /\ mk 3 = KeyErr.
Proof. vm_compute. repeat split; reflexivity. Qed.
(** An override by a class of the other kind; an override by a proxy that was never registered *)
Example C157_kinds_example :
  let kd := fun w => match w with 1 => Obj | _ => Comp end in
  let s := rrun kd (fun w => w) (fun w => 10 + w) (fun w => negb (Nat.eqb w 2)) (fun _ => true) code [New; New; New; New; SetType 0 1 true; SetType 3 2 true] in
  let mk w := snd (create kd (fun w => w) (fun _ => true) code (fun n => decode n n) 5 true s w [] [] None) in
  mk 0 = Fatal /\ mk 1 = Made 11 /\ mk 2 = KeyErr /\ mk 3 = KeyErr.
Proof. vm_compute. repeat split; reflexivity. Qed.

(** A component class and then an object class under the name 5 *)
Example C158_example :
  let kd := fun w => match w with 0 => Comp | _ => Obj end in
  let run := rrun kd (fun _ => 5) (fun w => 10 + w) (fun _ => true) (fun _ => true) code in
  let name ops k := by_name kd (fun _ => 5) (fun _ => true) code (fun n => decode n n) 5 true (run ops) k 5 [] in
  let mk ops w := snd (create kd (fun _ => 5) (fun _ => true) code (fun n => decode n n) 5 true (run ops) w [] [] None) in
  let a := [New; New] in
  name a Comp = Made 10 /\ name a Obj = Null /\ mk a 1 = Made 11 /\
  name (a ++ [SetFactory (User 0)]) Comp = Null /\ mk (a ++ [SetFactory (User 0)]) 0 = Made 10 /\
  mk (a ++ [ResetCore]) 0 = KeyErr /\ mk (a ++ [ResetCore; New]) 0 = KeyErr /\ mk (a ++ [ResetCore; New]) 1 = Made 12.
Proof. vm_compute. repeat split; reflexivity. Qed.

(** An override for "a" below "t.e" applies to "a" and to "ab" there and below "t.e.a", not to "b"; the
    paths are numbered by their place in a list. *)
Definition ex_paths : list str := ([["t"; "."; "e"; "."; "a"]; ["t"; "."; "e"; "."; "a"; "b"]; ["t"; "."; "e"; "."; "b"]; ["t"; "."; "e"; "."; "a"; "."; "x"]])%char.
Definition str_eqb (a b : str) : bool := if list_eq_dec ascii_dec a b then true else false.
Fixpoint ex_num (l : list str) (s : str) : nat := match l with [] => 0 | x :: l => if str_eqb x s then 0 else S (ex_num l s) end.
Example C159_example :
  let te := (["t"; "."; "e"])%char in
  let ops := [New; New; SetInst 0 1 ["a"%char] (Some te)] in
  let num := ex_num ex_paths in let txt := fun n => nth n ex_paths [] in
  let s := rrun (fun _ => Comp) (fun w => w) (fun w => 10 + w) (fun _ => true) (fun _ => true) num ops in
  let mk name parent := snd (create (fun _ => Comp) (fun w => w) (fun _ => true) num txt 5 true s 0 name [] (Some parent)) in
  mk ["a"%char] te = Made 11 /\ mk (["a"; "b"]%char) te = Made 11 /\ mk ["b"%char] te = Made 10 /\ mk ["x"%char] (te ++ [".";"a"]%char) = Made 11.
Proof. vm_compute. repeat split; reflexivity. Qed.
(** Below the root, whose full name is empty, the path of the override begins with a dot: it does not
    apply to "a" at the top. *)
Example C159_root_limit :
  let run num := rrun (fun _ => Comp) (fun w => w) (fun w => 10 + w) (fun _ => true) (fun _ => true) num [New; New; SetInst 0 1 ["a"%char] (Some [])] in
  let ps := [["a"]; ["."; "a"]]%char in
  snd (create (fun _ => Comp) (fun w => w) (fun _ => true) (ex_num ps) (fun n => nth n ps []) 5 true (run (ex_num ps)) 0 ["a"%char] [] (Some [])) = Made 10.
Proof. vm_compute. reflexivity. Qed.
