From Coq Require Import List Bool Arith ZArith Ascii String Lia.
From Verif Require Import Prelude SvModel SvSpec SvProofs AutoModel AutoSpec AutoProofs.
Import ListNotations.
Local Open Scope nat_scope.

(** ** Nested settings *)
Lemma fold_res_app {S F} (step : S -> F -> res S) a b s :
  fold_res step (a ++ b) s = match fold_res step a s with Ok s1 => fold_res step b s1 | Exn => Exn | OutOfFuel => OutOfFuel end.
Proof. revert s. induction a as [|x a IH]; intros s; cbn; auto. destruct (step s x); auto. Qed.

(** A value that was set stays. *)
Lemma set_obj_sticky fuel : forall scopes n v h self pre h', set_obj fuel scopes n v h self pre = Ok h' ->
  forall o f, attr (h o) f = Some v -> attr (h' o) f = Some v.
Proof.
  induction fuel as [|fuel IH]; intros scopes n v h self pre h'; cbn [set_obj]; [discriminate|].
  destruct (existsb (Nat.eqb self) scopes); [intros [= <-]; auto|].
  generalize (decls (h self)). intros ds. revert h. induction ds as [|d ds IHd]; intros h; cbn [fold_res]; [intros [= <-]; auto|].
  destruct (set_obj_field _ self pre n v h d) as [h1| |] eqn:E; try discriminate. intros F o f A. apply (IHd h1 F). clear IHd F.
  unfold set_obj_field in E. destruct (attr (h self) (fst d)) as [a|]; [|discriminate].
  destruct (matches n (dotted pre (fst d))).
  { destruct (snd d); injection E as <-; auto. rewrite setattr_attr. destruct (_ && _); auto. }
  destruct a; [injection E as <-; auto|..];
    (destruct (snd d); [injection E as <-; auto|]; destruct (wide n); [|injection E as <-; auto]); try discriminate.
  eapply IH; eauto.
Qed.

(** One field, then the rest. *)
Lemma field_sticky fuel scopes n v self pre h d h1 : set_obj_field (set_obj fuel scopes n v) self pre n v h d = Ok h1 ->
  forall o f, attr (h o) f = Some v -> attr (h1 o) f = Some v.
Proof.
  intros E o f A. unfold set_obj_field in E. destruct (attr (h self) (fst d)) as [a|]; [|discriminate].
  destruct (matches n (dotted pre (fst d))).
  { destruct (snd d); injection E as <-; auto. rewrite setattr_attr. destruct (_ && _); auto. }
  destruct a; [injection E as <-; auto|..];
    (destruct (snd d); [injection E as <-; auto|]; destruct (wide n); [|injection E as <-; auto]); try discriminate.
  eapply set_obj_sticky; eauto.
Qed.
Lemma fields_sticky fuel scopes n v self pre ds : forall h h', fold_res (set_obj_field (set_obj fuel scopes n v) self pre n v) ds h = Ok h' ->
  forall o f, attr (h o) f = Some v -> attr (h' o) f = Some v.
Proof.
  induction ds as [|d ds IH]; intros h h'; cbn [fold_res]; [intros [= <-]; auto|].
  destruct (set_obj_field _ self pre n v h d) as [h1| |] eqn:E; try discriminate. intros F o f A.
  eapply IH; eauto. eapply field_sticky; eauto.
Qed.
Lemma field_frame fuel scopes n v self pre h d h1 : set_obj_field (set_obj fuel (self :: scopes) n v) self pre n v h d = Ok h1 ->
  (forall o, decls (h1 o) = decls (h o)) /\
  (matches n (dotted pre (fst d)) = false -> h1 self = h self).
Proof.
  intros E. unfold set_obj_field in E. destruct (attr (h self) (fst d)) as [a|]; [|discriminate].
  destruct (matches n (dotted pre (fst d))).
  { split; [|discriminate]. destruct (snd d); injection E as <-; auto. intros. apply setattr_decls. }
  destruct a; [injection E as <-; auto|..];
    (destruct (snd d); [injection E as <-; auto|]; destruct (wide n); [|injection E as <-; auto]); try discriminate.
  apply set_obj_frame in E. destruct E as (A & B & _). split; auto. intros _. apply B. cbn. auto.
Qed.
Lemma fields_decls fuel scopes n v self pre ds : forall h h', fold_res (set_obj_field (set_obj fuel (self :: scopes) n v) self pre n v) ds h = Ok h' ->
  forall o, decls (h' o) = decls (h o).
Proof.
  induction ds as [|d ds IH]; intros h h'; cbn [fold_res]; [intros [= <-]; auto|].
  destruct (set_obj_field _ self pre n v h d) as [h1| |] eqn:E; try discriminate. intros F o.
  rewrite (IH _ _ F). now apply (field_frame _ _ _ _ _ _ _ _ _ E).
Qed.
Lemma fields_self fuel scopes n v self pre ds : forall h h', fold_res (set_obj_field (set_obj fuel (self :: scopes) n v) self pre n v) ds h = Ok h' ->
  (forall d, In d ds -> matches n (dotted pre (fst d)) = false) -> h' self = h self.
Proof.
  induction ds as [|d ds IH]; intros h h'; cbn [fold_res]; [intros [= <-]; auto|].
  destruct (set_obj_field _ self pre n v h d) as [h1| |] eqn:E; try discriminate. intros F M.
  rewrite (IH _ _ F) by (intros; apply M; cbn; auto). apply (field_frame _ _ _ _ _ _ _ _ _ E). apply M. cbn. auto.
Qed.

(** An object walked under the path [pre] has its writable fields set whose dotted name matches. *)
Lemma walk_sets fuel scopes n v h self pre h' f : set_obj fuel scopes n v h self pre = Ok h' ->
  ~ In self scopes -> In (f, false) (decls (h self)) -> matches n (dotted pre f) = true -> attr (h' self) f = Some v.
Proof.
  destruct fuel as [|fuel]; [discriminate|]. cbn [set_obj]. intros E NS I M.
  assert (ES : existsb (Nat.eqb self) scopes = false).
  { destruct (existsb (Nat.eqb self) scopes) eqn:ES; auto. apply existsb_exists in ES. destruct ES as (y & Iy & Ey). apply Nat.eqb_eq in Ey. now subst. }
  rewrite ES in E. apply in_split in I. destruct I as (l1 & l2 & D). rewrite D, fold_res_app in E.
  destruct (fold_res _ l1 h) as [h1| |]; try discriminate. cbn [fold_res] in E.
  destruct (set_obj_field _ self pre n v h1 (f, false)) as [h2| |] eqn:E2; try discriminate.
  eapply fields_sticky; eauto. unfold set_obj_field in E2. cbn [fst snd] in E2. destruct (attr (h1 self) f); [|discriminate].
  rewrite M in E2. injection E2 as <-. rewrite setattr_attr, Nat.eqb_refl, str_eqb_refl. reflexivity.
Qed.

Definition path2 (a b : str) : str := a ++ "."%char :: b.
Lemma path2_wide a b : wide (path2 a b) = true.
Proof. unfold wide, path2. rewrite existsb_app. cbn. now rewrite orb_true_r. Qed.
Lemma path2_sep a b : has_sep (path2 a b).
Proof. left. apply in_app_iff. cbn. auto. Qed.
Lemma path2_lit a b : Forall word_char a -> Forall word_char b -> literal (path2 a b).
Proof.
  intros A B. apply Forall_app. split; [now apply word_lit|]. constructor; [split; unfold plain; cbn; intuition discriminate|now apply word_lit].
Qed.

Lemma nested_sets fuel (h : heap) c a b o v h' :
  (forall d, In d (decls (h c)) -> Forall word_char (fst d)) -> In (a, false) (decls (h c)) -> a <> [] ->
  attr (h c) a = Some (VObj o) -> o <> c -> In (b, false) (decls (h o)) -> Forall word_char b ->
  set_object_local fuel h c (path2 a b) v = Ok h' -> attr (h' o) b = Some v.
Proof.
  intros W Ia Na Aa No Ib Wb E. assert (Wa : Forall word_char a) by (apply (W _ Ia)).
  assert (L : literal (path2 a b)) by now apply path2_lit.
  assert (NM : forall d, In d (decls (h c)) -> matches (path2 a b) (dotted [] (fst d)) = false).
  { intros d I. cbn [dotted]. apply sep_no_match; auto using lit_plain, lit_slash, path2_sep. }
  unfold set_object_local in E. destruct fuel as [|fuel]; [discriminate|]. cbn [set_obj existsb] in E.
  destruct (in_split _ _ Ia) as (l1 & l2 & D). rewrite D in E, NM. rewrite fold_res_app in E.
  destruct (fold_res _ l1 h) as [h1| |] eqn:E1; try discriminate. cbn [fold_res] in E.
  destruct (set_obj_field _ c [] (path2 a b) v h1 (a, false)) as [h2| |] eqn:E2; try discriminate.
  eapply fields_sticky; [exact E|]. clear E.
  assert (S1 : h1 c = h c) by (eapply fields_self; eauto; intros; apply NM; apply in_app_iff; auto).
  assert (D1 : forall o, decls (h1 o) = decls (h o)) by (eapply fields_decls; eauto).
  unfold set_obj_field in E2. cbn [fst snd] in E2. rewrite S1, Aa in E2.
  pose proof (NM (a, false)) as NMa. cbn [fst] in NMa. rewrite NMa in E2 by (apply in_app_iff; cbn; auto). rewrite path2_wide in E2. cbn [dotted] in E2.
  eapply walk_sets; eauto.
  - cbn. intuition.
  - now rewrite D1.
  - apply matches_lit; auto. exists [], []. rewrite app_nil_r. destruct a; [congruence|reflexivity].
Qed.

(** Whatever changes gets the value, is a writable field, and has a dotted name that matches while
    the name of what holds it does not. *)
Definition mixed (h0 : heap) (v : value) (h : heap) : Prop :=
  (forall o, decls (h o) = decls (h0 o)) /\ forall o f, attr (h o) f = attr (h0 o) f \/ attr (h o) f = Some v.
Definition good_change (h0 : heap) (c : nat) (n : str) (v : value) (o : nat) (f : str) : Prop :=
  In (f, false) (decls (h0 o)) /\
  exists p, path_to h0 v c p o /\ (p = [] \/ matches n p = false) /\ matches n (dotted p f) = true.
Lemma nested_only h0 c n v fuel : forall scopes h self pre h', mixed h0 v h -> path_to h0 v c pre self ->
  set_obj fuel scopes n v h self pre = Ok h' -> (pre = [] \/ matches n pre = false) ->
  mixed h0 v h' /\ forall o f, attr (h' o) f <> attr (h o) f -> good_change h0 c n v o f.
Proof.
  induction fuel as [|fuel IH]; intros scopes h self pre h' MX PT; cbn [set_obj]; [discriminate|].
  destruct (existsb (Nat.eqb self) scopes); [intros [= <-]; split; auto; congruence|].
  intros E HP. assert (SUB : forall d, In d (decls (h self)) -> In d (decls (h0 self))) by (now rewrite (proj1 MX)). revert E SUB.
  generalize (decls (h self)). intros ds. revert h MX. induction ds as [|d ds IHd]; intros h MX; cbn [fold_res]; [intros [= <-]; split; auto; congruence|].
  destruct (set_obj_field _ self pre n v h d) as [h1| |] eqn:E; try discriminate. intros F SUB.
  assert (Id : In d (decls (h0 self))) by (apply SUB; cbn; auto).
  assert (K : mixed h0 v h1 /\ forall o f, attr (h1 o) f <> attr (h o) f -> good_change h0 c n v o f).
  { clear IHd F. unfold set_obj_field in E. destruct (attr (h self) (fst d)) as [a|] eqn:EA; [|discriminate].
    destruct (matches n (dotted pre (fst d))) eqn:M.
    { destruct (snd d) eqn:SD; injection E as <-; [split; auto; congruence|]. split.
      - destruct MX as [M1 M2]. split; [intros; rewrite setattr_decls; auto|]. intros o f. rewrite setattr_attr. destruct (_ && _); auto.
      - intros o f. rewrite setattr_attr. destruct (Nat.eqb_spec o self) as [-> |]; cbn [andb]; [|congruence].
        destruct (str_eqb_spec f (fst d)) as [-> |]; [|congruence]. intros _. split; [|eauto]. destruct d. cbn in *. now subst. }
    destruct a as [| | |o'| |] eqn:VA; [injection E as <-; split; auto; congruence|..];
      (destruct (snd d) eqn:SD; [injection E as <-; split; auto; congruence|]; destruct (wide n); [|injection E as <-; split; auto; congruence]); try discriminate.
    refine (IH (self :: scopes) h o' (dotted pre (fst d)) h1 MX _ E (or_intror M)). eapply path_down; [exact PT| |].
    - destruct d. cbn in *. now subst.
    - destruct MX as [_ M2]. destruct (M2 self (fst d)) as [Q|Q]; rewrite EA in Q; [left; congruence|right; congruence]. }
  destruct K as [MX1 K]. destruct (IHd h1 MX1 F) as [MX2 K2]; [intros; apply SUB; cbn; auto|]. split; auto. intros o f C.
  assert (DEC : {attr (h1 o) f = attr (h o) f} + {attr (h1 o) f <> attr (h o) f}) by (repeat decide equality).
  destruct DEC as [DEC|DEC]; [apply K2; congruence|auto].
Qed.

(** Where a dotted name can occur. *)
Lemma app_dot_cases (l a r p f : str) :
  l ++ "."%char :: r = p ++ "."%char :: f -> ~ In "."%char f -> (l = p /\ r = f) \/ exists t, p = l ++ "."%char :: t /\ r = t ++ "."%char :: f.
Proof.
  revert p. induction l as [|x l IH]; intros [|y p] E N; cbn in E.
  - injection E as ->. auto.
  - injection E as <- E. right. exists p. auto.
  - injection E as -> E. subst f. elim N. apply in_app_iff. cbn. auto.
  - injection E as <- E. destruct (IH p E N) as [[-> ->]|(t & -> & ->)]; auto. right. exists t. auto.
Qed.
Lemma part_nested a b p f : Forall word_char b -> ~ In "."%char f ->
  part_of (path2 a b) (p ++ "."%char :: f) -> ~ part_of (path2 a b) p ->
  exists x y, p = x ++ a /\ f = b ++ y.
Proof.
  intros Wb Nf (l & r & E) NP. unfold path2 in *.
  assert (E' : (l ++ a) ++ "."%char :: (b ++ r) = p ++ "."%char :: f).
  { rewrite E. rewrite <- !app_assoc. reflexivity. }
  destruct (app_dot_cases _ a _ _ _ E' Nf) as [[H1 H2]|(t & H1 & H2)].
  - exists l, r. auto.
  - exfalso. apply NP.
    assert (K : exists u, t = b ++ u).
    { clear -H2 Wb. revert t H2. induction b as [|x b IH]; intros t H2; [exists t; auto|]. apply Forall_cons_iff in Wb. destruct Wb as [[_ Wx] Wb].
      destruct t as [|y t]; cbn in H2; injection H2 as -> H2; [elim Wx; cbn; auto|]. destruct (IH Wb t H2) as (u & ->). exists u. reflexivity. }
    destruct K as (u & ->). exists l, u. rewrite H1. rewrite <- !app_assoc. reflexivity.
Qed.

(** A nested object setting raises when a writable field of the component holds an int or a string. *)
Lemma nested_raises fuel (h : heap) c n v d a : In d (decls (h c)) -> snd d = false -> wide n = true -> matches n (fst d) = false ->
  attr (h c) (fst d) = Some a -> a <> VNone -> (forall o, a <> VObj o) -> forall h', set_object_local fuel h c n v <> Ok h'.
Proof.
  intros I SD WI M A N1 N2 h' E. unfold set_object_local in E. destruct fuel as [|fuel]; [discriminate|]. cbn [set_obj existsb] in E.
  destruct (in_split _ _ I) as (l1 & l2 & D). rewrite D in E. rewrite fold_res_app in E.
  destruct (fold_res _ l1 h) as [h1| |] eqn:E1; try discriminate. cbn [fold_res] in E.
  assert (A1 : attr (h1 c) (fst d) = Some a).
  { clear -E1 A M. revert h A E1. induction l1 as [|d' l1 IH]; intros h A; cbn [fold_res]; [intros [= <-]; auto|].
    destruct (set_obj_field _ c [] n v h d') as [h2| |] eqn:E; try discriminate. intros F. apply (IH h2); auto.
    destruct (matches n (fst d')) eqn:M'.
    - unfold set_obj_field in E. cbn [dotted] in E. rewrite M' in E. destruct (attr (h c) (fst d')); [|discriminate].
      destruct (snd d'); injection E as <-; auto. rewrite setattr_attr, Nat.eqb_refl. cbn. destruct (str_eqb_spec (fst d) (fst d')); [congruence|auto].
    - rewrite (proj2 (field_frame _ _ _ _ _ _ _ _ _ E)); auto. }
  unfold set_obj_field in E at 1. cbn [dotted] in E. rewrite A1, M, SD, WI in E. destruct a; try discriminate; try congruence.
Qed.

(** ** The position that is kept from one resource to the next *)
Lemma advance_le j s : j <= advance j s.
Proof. unfold advance. lia. Qed.
Lemma advance_plain j s : ~ has_sep s -> List.length s <= advance j s.
Proof.
  intros N. unfold advance. rewrite to_sep_none by (intros c I; apply (no_sep _ N); eapply in_skipn; eauto). rewrite skipn_length. lia.
Qed.
Lemma one_j fuel c fields h j r h' j' : apply_one fuel c fields (h, j) r = Ok (h', j') -> j' = advance j (rname r).
Proof.
  unfold apply_one. cbn [fst snd]. destruct (negb _ && negb _); [intros [= <- <-]; auto|].
  destruct (rval r); try discriminate; try (intros [= <- <-]; auto). destruct set_object_local; try discriminate. intros [= <- <-]. auto.
Qed.
Lemma all_j fuel c fields rs : forall h j h' j', fold_res (apply_one fuel c fields) rs (h, j) = Ok (h', j') ->
  j <= j' /\ forall r, In r rs -> ~ has_sep (rname r) -> List.length (rname r) <= j'.
Proof.
  induction rs as [|r rs IH]; intros h j h' j'; cbn [fold_res].
  - intros [= <- <-]. split; auto. contradiction.
  - destruct (apply_one fuel c fields (h, j) r) as [[h1 j1]| |] eqn:E; try discriminate. intros F. apply one_j in E.
    destruct (IH _ _ _ _ F) as [L A]. pose proof (advance_le j (rname r)). split; [lia|]. intros x [<-|I] N; [|auto].
    pose proof (advance_plain j (rname r) N). lia.
Qed.
Lemma to_sep_split s : has_sep s -> exists c t, is_sep c = true /\ s = firstn (to_sep s) s ++ c :: t /\ to_sep s < List.length s.
Proof.
  intros H. assert (K : exists x, In x s /\ is_sep x = true).
  { destruct H as [H|H]; eexists; split; eauto. }
  clear H. induction s as [|y s IH]; [destruct K as (x & [] & _)|]. cbn. destruct (is_sep y) eqn:E.
  - exists y, s. repeat split; auto. lia.
  - destruct IH as (c & t & Ec & Es & L).
    + destruct K as (x & [<-|I] & Ex); [congruence|eauto].
    + exists c, t. repeat split; auto; [|lia]. cbn. f_equal. exact Es.
Qed.
Lemma firstn_app_le {A} (l m : list A) n : List.length l < n -> exists k, firstn n (l ++ m) = l ++ firstn (S k) m.
Proof.
  intros L. exists (n - List.length l - 1). rewrite firstn_app. rewrite (firstn_all2 l) by lia. do 2 f_equal. lia.
Qed.
(** Past the first separator, no search name is a word. *)
Lemma search_late j s : has_sep s -> to_sep s < j -> has_sep (search_name j s).
Proof.
  intros H L. unfold search_name. destruct (j <? List.length s); auto.
  destruct (to_sep_split s H) as (c & t & Ec & Es & Ll). rewrite Es.
  destruct (firstn_app_le (firstn (to_sep s) s) (c :: t) j) as (k & ->); [rewrite firstn_length; lia|].
  destruct (sep_is c Ec) as [-> | ->]; [right|left]; apply in_app_iff; cbn; auto.
Qed.
Lemma search_first j s : has_sep s -> j <= to_sep s -> search_name (advance j s) s = firstn (to_sep s) s.
Proof.
  intros H L. destruct (to_sep_split s H) as (c & t & Ec & Es & Ll).
  assert (K : forall s j, j <= to_sep s -> advance j s = to_sep s).
  { clear. unfold advance. induction s as [|x s IH]; intros j L; cbn in *; [destruct j; cbn; lia|].
    destruct (is_sep x) eqn:E; [destruct j; [cbn; now rewrite E|lia]|]. destruct j as [|j]; [cbn; now rewrite E|]. cbn. rewrite IH; lia. }
  rewrite K by auto. unfold search_name. destruct (Nat.ltb_spec (to_sep s) (List.length s)); auto. lia.
Qed.
Lemma late_ignored fuel c fields h j r : Forall word fields -> has_sep (rname r) -> to_sep (rname r) < j ->
  apply_one fuel c fields (h, j) r = Ok (h, advance j (rname r)).
Proof.
  intros W H L. unfold apply_one. cbn [fst snd].
  assert (HS : has_sep (search_name (advance j (rname r)) (rname r))).
  { apply search_late; auto. pose proof (advance_le j (rname r)). lia. }
  assert (E1 : existsb (str_eqb (search_name (advance j (rname r)) (rname r))) fields = false).
  { apply existsb_str_false. intros I. rewrite Forall_forall in W. destruct (W _ I) as [_ Wc]. now apply (word_no_sep _ Wc). }
  assert (E2 : str_eqb (search_name (advance j (rname r)) (rname r)) recording_detail = false).
  { destruct (str_eqb_spec (search_name (advance j (rname r)) (rname r)) recording_detail) as [E|]; auto. rewrite E in HS.
    now elim (word_no_sep _ (proj2 rec_word)). }
  now rewrite E1, E2.
Qed.
