From Coq Require Import List Bool Arith ZArith Ascii String Lia Permutation.
From Verif Require Import Prelude SvModel SvSpec SvProofs AutoModel AutoSpec.
Import ListNotations.
Local Open Scope nat_scope.

(** ** Strings *)
Lemma str_eqb_spec a b : reflect (a = b) (str_eqb a b).
Proof. unfold str_eqb. destruct list_eq_dec; constructor; auto. Qed.
Lemma str_eqb_refl a : str_eqb a a = true.
Proof. now destruct (str_eqb_spec a a). Qed.

Lemma glob_keeps p m c : glob p m -> c <> "*"%char -> c <> "?"%char -> In c p -> In c m.
Proof.
  induction 1; intros A B I; cbn in *; auto.
  - destruct I as [<-|I]; [now elim A|]. auto.

  - destruct I as [<-|I]; [now elim B|]. auto.
  - destruct I as [<-|I]; auto.
Qed.
Lemma glob_lit p m : literal p -> (glob p m <-> m = p).
Proof.
  intros L. split.
  - intros G. induction G; auto; apply Forall_cons_iff in L; destruct L as [[_ Lc] L]; cbn in Lc; try (exfalso; apply Lc; auto; fail).
    f_equal. auto.
  - intros ->. induction L as [|c p [_ Lc] L IH]; constructor; auto; intros ->; apply Lc; cbn; auto.
Qed.
Lemma lit_plain p : literal p -> Forall plain p.
Proof. apply Forall_impl. tauto. Qed.
Lemma lit_slash p : literal p -> ~ slash_delimited p.
Proof. intros L (m & -> & _). apply Forall_cons_iff in L. destruct L as [[_ L] _]. apply L. cbn. auto. Qed.
Lemma word_lit s : Forall word_char s -> literal s.
Proof. apply Forall_impl. intros c [P N]. split; auto. intros I. apply N. cbn in *. intuition. Qed.
Lemma matches_plain p s : Forall plain p -> ~ slash_delimited p ->
  (matches p s = true <-> exists m, part_of m s /\ glob p m).
Proof. intros P S. unfold matches. rewrite is_match_ok by auto. apply search_glob. Qed.
Lemma matches_lit p s : literal p -> (matches p s = true <-> part_of p s).
Proof.
  intros L. rewrite matches_plain; auto using lit_plain, lit_slash. split.
  - intros (m & I & G). apply glob_lit in G; auto. now subst.
  - intros I. exists p. split; auto. now apply glob_lit.
Qed.
Lemma part_in a b c : part_of a b -> In c a -> In c b.
Proof. intros (l & r & ->) I. rewrite !in_app_iff. auto. Qed.
Lemma slash_head c p : slash_delimited (c :: p) -> c = "/"%char.
Proof. intros (m & E & _). congruence. Qed.

(** A name with a separator matches no word, if it does not start with a slash. *)
Lemma sep_no_match p s : Forall plain p -> ~ slash_delimited p -> has_sep p -> Forall word_char s -> matches p s = false.
Proof.
  intros P S Hs W. destruct (matches p s) eqn:E; auto. apply matches_plain in E; auto. destruct E as (m & I & G).
  assert (K : exists c, In c m /\ (c = "."%char \/ c = "["%char)).
  { destruct Hs as [Hs|Hs]; eexists; (split; [eapply glob_keeps; [exact G| | |exact Hs]; discriminate|auto]). }
  destruct K as (c & Ic & Ec). pose proof (part_in _ _ _ I Ic) as Ic'. rewrite Forall_forall in W.
  destruct (W _ Ic') as [_ N]. exfalso. apply N. cbn. intuition.
Qed.

(** ** Objects *)
Lemma setattr_decls h o f v o' : decls (setattr h o f v o') = decls (h o').
Proof. unfold setattr, upd. destruct (Nat.eqb_spec o' o); subst; reflexivity. Qed.
Lemma setattr_attr h o f v o' g :
  attr (setattr h o f v o') g = if Nat.eqb o' o && str_eqb g f then Some v else attr (h o') g.
Proof. unfold setattr, upd. destruct (Nat.eqb_spec o' o); subst; reflexivity. Qed.
Lemma setattr_other h o f v o' : o' <> o -> setattr h o f v o' = h o'.
Proof. intros N. unfold setattr. now rewrite upd_neq. Qed.

Lemma set_fields c n v ds : forall h,
  let h' := fold_left (set_field c n v) ds h in
  (forall o, decls (h' o) = decls (h o)) /\
  (forall o, o <> c -> h' o = h o) /\
  (forall f, attr (h' c) f = if existsb (fun d => str_eqb f (fst d) && negb (snd d)) ds && matches n f then Some v else attr (h c) f).
Proof.
  induction ds as [|d ds IH]; intros h; cbn [fold_left]; [cbn; auto|].
  destruct (IH (set_field c n v h d)) as (A & B & C).
  assert (K : (forall o, decls (set_field c n v h d o) = decls (h o)) /\ (forall o, o <> c -> set_field c n v h d o = h o) /\
              forall f, attr (set_field c n v h d c) f = if str_eqb f (fst d) && negb (snd d) && matches n f then Some v else attr (h c) f).
  { unfold set_field. destruct (matches n (fst d)) eqn:E.
    - destruct (snd d).
      + repeat split; auto. intros f. now rewrite andb_false_r.
      + repeat split; [intros; apply setattr_decls|intros; now apply setattr_other|]. intros f. rewrite setattr_attr, Nat.eqb_refl. cbn.
        destruct (str_eqb_spec f (fst d)); [subst; now rewrite E|]. reflexivity.
    - repeat split; auto. intros f. destruct (str_eqb_spec f (fst d)); [subst; rewrite E; now rewrite andb_false_r|reflexivity]. }
  destruct K as (A' & B' & C'). repeat split.
  - intros o. now rewrite A, A'.
  - intros o N. now rewrite B, B'.
  - intros f. rewrite C, C'. cbn [existsb]. destruct (str_eqb f (fst d) && negb (snd d)), (existsb _ ds), (matches n f); reflexivity.
Qed.

Lemma set_obj_narrow self n v rec ds : wide n = false -> forall h,
  (forall d, In d ds -> attr (h self) (fst d) <> None) ->
  fold_res (set_obj_field rec self [] n v) ds h = Ok (fold_left (set_field self n v) ds h).
Proof.
  intros W. induction ds as [|d ds IH]; intros h P; cbn [fold_res fold_left]; auto.
  assert (E : set_obj_field rec self [] n v h d = Ok (set_field self n v h d)).
  { unfold set_obj_field, set_field. cbn [dotted]. destruct (attr (h self) (fst d)) as [a|] eqn:E; [|elim (P d); cbn; auto].
    rewrite W. destruct (matches n (fst d)), (snd d), a; reflexivity. }
  rewrite E. apply IH. intros d' I.
  pose proof (set_fields self n v [d] h) as (_ & _ & K). cbn [fold_left] in K. rewrite K.
  destruct (_ && _); [discriminate|]. apply P. cbn. auto.
Qed.

(** Walking objects leaves declarations alone, sets no attribute to unset, and does not touch
    the objects being walked above. *)
Lemma set_obj_frame fuel : forall scopes n v h self pre h', set_obj fuel scopes n v h self pre = Ok h' ->
  (forall o, decls (h' o) = decls (h o)) /\ (forall o, In o scopes -> h' o = h o) /\
  (forall o f, attr (h o) f <> None -> attr (h' o) f <> None).
Proof.
  induction fuel as [|fuel IH]; intros scopes n v h self pre h'; cbn [set_obj]; [discriminate|].
  destruct (existsb (Nat.eqb self) scopes) eqn:ES; [intros [= <-]; auto|].
  assert (NS : ~ In self scopes).
  { intros I. assert (existsb (Nat.eqb self) scopes = true) by (apply existsb_exists; exists self; split; auto; apply Nat.eqb_refl). congruence. }
  generalize (decls (h self)) at 1. intros ds. revert h. induction ds as [|d ds IHd]; intros h; cbn [fold_res]; [intros [= <-]; auto|].
  destruct (set_obj_field _ self pre n v h d) as [h1| |] eqn:E; try discriminate. intros F.
  destruct (IHd h1 F) as (A & B & C). clear IHd F.
  assert (K : (forall o, decls (h1 o) = decls (h o)) /\ (forall o, In o scopes -> h1 o = h o) /\
              (forall o f, attr (h o) f <> None -> attr (h1 o) f <> None)).
  { unfold set_obj_field in E. destruct (attr (h self) (fst d)) as [a|] eqn:Ea; [|discriminate].
    assert (KS : (forall o, decls (setattr h self (fst d) v o) = decls (h o)) /\ (forall o, In o scopes -> setattr h self (fst d) v o = h o) /\
              (forall o f, attr (h o) f <> None -> attr (setattr h self (fst d) v o) f <> None)).
    { repeat split; [intros; apply setattr_decls|intros; apply setattr_other; intros ->; auto|]. intros o f P. rewrite setattr_attr.
      destruct (_ && _); auto; discriminate. }
    assert (KR : forall o, set_obj fuel (self :: scopes) n v h o (dotted pre (fst d)) = Ok h1 ->
       (forall o, decls (h1 o) = decls (h o)) /\ (forall o, In o scopes -> h1 o = h o) /\
              (forall o f, attr (h o) f <> None -> attr (h1 o) f <> None)).
    { intros o R. apply IH in R. destruct R as (X & Y & Z). repeat split; auto. intros o' I. apply Y. cbn. auto. }
    destruct (matches n (dotted pre (fst d))); [destruct (snd d); injection E as <-; auto|].
    destruct a; [injection E as <-; auto|..];
      (destruct (snd d); [injection E as <-; auto|]; destruct (wide n); [|injection E as <-; auto]); try discriminate; eauto. }
  destruct K as (A' & B' & C'). repeat split.
  - intros o. now rewrite A, A'.
  - intros o I. now rewrite B, B'.
  - intros o f P. auto.
Qed.

(** ** Search names *)
Lemma to_sep_none s : (forall c, In c s -> is_sep c = false) -> to_sep s = List.length s.
Proof. induction s as [|c s IH]; intros H; cbn; auto. rewrite (H c) by (cbn; auto). rewrite IH; auto. intros d I. apply H. cbn. auto. Qed.
Lemma has_sep_dec s : {has_sep s} + {~ has_sep s}.
Proof.
  unfold has_sep. destruct (in_dec ascii_dec "."%char s); [left; auto|]. destruct (in_dec ascii_dec "["%char s); [left; auto|]. right. tauto.
Qed.
Lemma no_sep s : ~ has_sep s -> forall c, In c s -> is_sep c = false.
Proof.
  intros N c I. unfold is_sep. destruct (Ascii.eqb_spec c "["), (Ascii.eqb_spec c "."); subst; auto; elim N; unfold has_sep; auto.
Qed.
Lemma in_skipn {A} n (l : list A) x : In x (skipn n l) -> In x l.
Proof. revert l. induction n as [|n IH]; intros [|y l]; cbn; auto. Qed.
Lemma search_plain j s : ~ has_sep s -> search_name (advance j s) s = s.
Proof.
  intros N. unfold search_name, advance. rewrite to_sep_none by (intros c I; apply (no_sep _ N); eapply in_skipn; eauto).
  rewrite skipn_length. destruct (Nat.ltb_spec (j + (List.length s - j)) (List.length s)); auto. lia.
Qed.
(** A search name is the name itself or what precedes a separator of it. *)
Lemma search_part j s : search_name (advance j s) s = s \/
  exists c t, is_sep c = true /\ s = search_name (advance j s) s ++ c :: t.
Proof.
  unfold search_name, advance. destruct (Nat.ltb_spec (j + to_sep (skipn j s)) (List.length s)) as [L|L]; auto. right.
  assert (K : forall t, to_sep t < List.length t -> exists c u, is_sep c = true /\ t = firstn (to_sep t) t ++ c :: u).
  { induction t as [|c t IH]; cbn; [lia|]. destruct (is_sep c) eqn:E; [intros _; exists c, t; auto|]. intros H.
    destruct IH as (c' & u & E' & H'); [lia|]. exists c', u. split; auto. cbn. f_equal. exact H'. }
  destruct (K (skipn j s)) as (c & u & E & H); [rewrite skipn_length; lia|]. exists c, u. split; auto.
  assert (F : firstn (j + to_sep (skipn j s)) s = firstn j s ++ firstn (to_sep (skipn j s)) (skipn j s)).
  { generalize (to_sep (skipn j s)). intros k. assert (Lj : j <= List.length s) by lia. clear -Lj. revert s Lj.
    induction j as [|j IH]; intros [|x s] Lj; cbn in *; auto; [lia|]. f_equal. apply IH. lia. }
  rewrite F, <- app_assoc, <- H. symmetry. apply firstn_skipn.
Qed.

(** ** Applying one resource *)
Lemma sep_walk fuel c n v h h' : Forall plain n -> ~ slash_delimited n -> has_sep n ->
  (forall d, In d (decls (h c)) -> Forall word_char (fst d)) ->
  set_obj fuel [] n v h c [] = Ok h' -> h' c = h c.
Proof.
  intros P S Hs W. destruct fuel as [|fuel]; [discriminate|]. cbn [set_obj existsb].
  revert W. generalize (decls (h c)) at 1 2. intros ds. revert h.
  induction ds as [|d ds IH]; intros h W; cbn [fold_res]; [now intros [= <-]|].
  destruct (set_obj_field _ c [] n v h d) as [h1| |] eqn:E; try discriminate. intros F.
  rewrite (IH h1); [|intros; apply W; cbn; auto|exact F]. clear IH F.
  unfold set_obj_field in E. cbn [dotted] in E. destruct (attr (h c) (fst d)) as [a|]; [|discriminate].
  rewrite (sep_no_match n (fst d)) in E by (auto; apply W; cbn; auto).
  destruct a; [now injection E as <-|..];
    (destruct (snd d); [now injection E as <-|]; destruct (wide n); [|now injection E as <-]); try discriminate.
  apply set_obj_frame in E. destruct E as (_ & E & _). apply E. cbn. auto.
Qed.

Lemma word_not_slash s t : Forall word_char s -> s <> [] -> ~ slash_delimited (s ++ t).
Proof.
  intros W N Sl. destruct s as [|c s]; [congruence|]. apply slash_head in Sl. subst.
  apply Forall_cons_iff in W. destruct W as [[_ W] _]. apply W. cbn. auto 10.
Qed.
Lemma rec_word : word recording_detail.
Proof.
  split; [discriminate|]. apply Forall_forall. intros c I. cbn in I.
  repeat (destruct I as [<-|I]; [split; unfold plain; cbn; intuition discriminate|]). contradiction.
Qed.
Lemma word_no_sep s : Forall word_char s -> ~ has_sep s.
Proof. intros W [I|I]; rewrite Forall_forall in W; destruct (W _ I) as [_ N]; apply N; cbn; auto 10. Qed.
Lemma word_narrow s : Forall word_char s -> wide s = false.
Proof.
  intros W. unfold wide. destruct (existsb _ s) eqn:E; auto. apply existsb_exists in E. destruct E as (c & I & E).
  rewrite Forall_forall in W. destruct (W _ I) as [_ N]. exfalso. apply N. apply orb_true_iff in E.
  destruct E as [E|E]; apply Ascii.eqb_eq in E; subst; cbn; auto.
Qed.
Lemma sep_is c : is_sep c = true -> c = "["%char \/ c = "."%char.
Proof. unfold is_sep. rewrite orb_true_iff, !Ascii.eqb_eq. auto. Qed.
Lemma existsb_str s l : existsb (str_eqb s) l = true <-> In s l.
Proof.
  rewrite existsb_exists. split.
  - intros (x & I & E). destruct (str_eqb_spec s x); congruence.
  - intros I. exists s. split; auto. apply str_eqb_refl.
Qed.
Lemma existsb_str_false s l : existsb (str_eqb s) l = false <-> ~ In s l.
Proof. rewrite <- existsb_str. destruct existsb; intuition congruence. Qed.

Definition writable (ds : list (str * bool)) (f : str) : bool :=
  existsb (fun d => str_eqb f (fst d) && negb (snd d)) ds.
Lemma writable_in ds f : writable ds f = true <-> In (f, false) ds.
Proof.
  unfold writable. rewrite existsb_exists. split.
  - intros ([g b] & I & E). cbn in E. apply andb_true_iff in E. destruct E as [E F]. destruct (str_eqb_spec f g); [|discriminate].
    destruct b; [discriminate|]. now subst.
  - intros I. exists (f, false). split; auto. cbn. now rewrite str_eqb_refl.
Qed.

(** The walk of a value without fields to descend into. *)
Lemma set_obj_own fuel h c n v : wide n = false ->
  (forall d, In d (decls (h c)) -> attr (h c) (fst d) <> None) ->
  set_object_local (S fuel) h c n v = Ok (set_local h c n v).
Proof. intros W P. unfold set_object_local, set_local. cbn [set_obj existsb]. now apply set_obj_narrow. Qed.

Section One.
Context (ds : list (str * bool)) (c : nat).
Context (W : Forall word (map fst ds)).

Lemma fields_word d : In d ds -> Forall word_char (fst d).
Proof. intros I. rewrite Forall_forall in W. apply (W (fst d)). now apply in_map. Qed.

Definition ready (h : heap) : Prop := decls (h c) = ds /\ forall d, In d ds -> attr (h c) (fst d) <> None.

(** Cases of one step: skipped, own fields set, or objects walked without effect on the
    component's own attributes. *)
Lemma one_cases fuel h j r st : ready h -> Forall plain (rname r) ->
  apply_one fuel c (map fst ds) (h, j) r = Ok st ->
  let known := In (rname r) (map fst ds) \/ rname r = recording_detail in
  snd st = advance j (rname r) /\
  ((~ (known /\ assignable (rval r)) /\ fst st = h) \/
   (known /\ assignable (rval r) /\ fst st = set_local h c (rname r) (rval r)) \/
   (~ known /\ has_sep (rname r) /\ wide (rname r) = true /\ (exists o, rval r = VObj o) /\ fst st c = h c /\
      set_object_local fuel h c (rname r) (rval r) = Ok (fst st))).
Proof.
  intros [D Pr] P. unfold apply_one. cbn [fst snd]. cbv zeta.
  set (j' := advance j (rname r)). set (sn := search_name j' (rname r)).
  destruct (negb (existsb (str_eqb sn) (map fst ds)) && negb (str_eqb sn recording_detail)) eqn:ES.
  - intros [= <-]. split; auto. left. split; auto. intros [K _].
    assert (NS : ~ has_sep (rname r)).
    { destruct K as [K|K]; [|rewrite K; apply word_no_sep, rec_word].
      apply word_no_sep. rewrite Forall_forall in W. now apply W. }
    assert (E : sn = rname r) by (apply search_plain; auto). rewrite E in ES.
    apply andb_true_iff in ES. destruct ES as [E1 E2]. apply negb_true_iff in E1, E2. apply existsb_str_false in E1.
    destruct K as [K|K]; [auto|]. rewrite K, str_eqb_refl in E2. discriminate.
  - assert (KS : In sn (map fst ds) \/ sn = recording_detail).
    { apply andb_false_iff in ES. destruct ES as [ES|ES]; apply negb_false_iff in ES; [left; now apply existsb_str|right].
      now destruct (str_eqb_spec sn recording_detail). }
    assert (WS : word sn).
    { destruct KS as [KS|KS]; [rewrite Forall_forall in W; now apply W|rewrite KS; apply rec_word]. }
    destruct (search_part j (rname r)) as [E|(x & t & X & E)]; fold j' in E; fold sn in E.
    + rewrite E in KS, WS. destruct WS as [WN WS].
      destruct (rval r) as [|z|s|o|k|k] eqn:EV; try discriminate; try (intros [= <-]; split; auto).
      * left. split; auto. intros [_ []].
      * right. left. cbn. auto.
      * right. left. cbn. auto.
      * destruct (set_object_local fuel h c (rname r) (VObj o)) as [h1| |] eqn:EO; try discriminate. intros [= <-]. split; auto.
        right. left. cbn [fst assignable]. repeat split; auto. destruct fuel as [|fuel]; [discriminate|].
        rewrite set_obj_own in EO by (auto using word_narrow; rewrite D; auto). now injection EO.
      * left. split; auto. intros [_ []].
    + assert (HS : has_sep (rname r)).
      { rewrite E. destruct (sep_is x X) as [-> | ->]; [right|left]; apply in_app_iff; cbn; auto. }
      assert (NK : ~ (In (rname r) (map fst ds) \/ rname r = recording_detail)).
      { intros [K|K]; [|rewrite K in HS; now apply (word_no_sep _ (proj2 rec_word))].
        rewrite Forall_forall in W. now apply (word_no_sep _ (proj2 (W _ K))). }
      assert (SL : ~ slash_delimited (rname r)).
      { rewrite E. destruct WS. now apply word_not_slash. }
      assert (NM : forall d, In d ds -> matches (rname r) (fst d) = false).
      { intros d I. apply sep_no_match; auto using fields_word. }
      assert (NL : forall v, set_local h c (rname r) v = h).
      { intros v. unfold set_local. rewrite D. clear -NM. induction ds as [|d l IH]; auto. cbn [fold_left].
        unfold set_field at 2. rewrite NM by (cbn; auto). apply IH. intros; apply NM; cbn; auto. }
      destruct (rval r) as [|z|s|o|k|k] eqn:EV; try discriminate; try (intros [= <-]; split; auto);
        try (left; split; [tauto|cbn; auto]; fail).
      destruct (set_object_local fuel h c (rname r) (VObj o)) as [h1| |] eqn:EO; try discriminate. intros [= <-]. split; auto.
      destruct (wide (rname r)) eqn:WI.
      * right. right. repeat split; auto; [exists o; auto|]. cbn [fst]. eapply sep_walk; eauto. rewrite D. auto using fields_word.
      * left. split; [tauto|]. cbn [fst]. destruct fuel as [|fuel]; [discriminate|].
        rewrite set_obj_own in EO by (auto; rewrite D; auto). rewrite NL in EO. now injection EO.
Qed.

Lemma one_effect fuel h j r st : ready h -> Forall plain (rname r) ->
  apply_one fuel c (map fst ds) (h, j) r = Ok st ->
  ready (fst st) /\
  (forall f, In (f, false) ds -> concerns ds f r -> attr (fst st c) f = Some (rval r)) /\
  (forall f, ~ (In (f, false) ds /\ concerns ds f r) -> attr (fst st c) f = attr (h c) f) /\
  (wide (rname r) = false \/ (forall o, rval r <> VObj o) -> forall o, o <> c -> fst st o = h o).
Proof.
  intros R P E. pose proof (one_cases fuel h j r st R P E) as [_ [[N EH]|[(K & A & EH)|(N & HS & WI & VO & SC & EO)]]]; destruct R as [D Pr].
  - rewrite EH. repeat split; auto. intros f _ (K & _ & A). tauto.
  - rewrite EH. pose proof (set_fields c (rname r) (rval r) (decls (h c)) h) as (F1 & F2 & F3). fold (set_local h c (rname r) (rval r)) in F1, F2, F3.
    assert (L : literal (rname r)).
    { apply word_lit. destruct K as [K|K]; [rewrite Forall_forall in W; now apply W|rewrite K; apply rec_word]. }
    rewrite D in F3. fold (writable ds) in F3.
    assert (F3' : forall f, attr (set_local h c (rname r) (rval r) c) f =
              if writable ds f && matches (rname r) f then Some (rval r) else attr (h c) f) by exact F3. clear F3.
    repeat split; auto.
    + now rewrite F1.
    + intros d I. rewrite F3'. destruct (_ && _); [discriminate|auto].
    + intros f I (_ & PO & _). rewrite F3'. apply writable_in in I. rewrite I. apply matches_lit in PO; auto. now rewrite PO.
    + intros f NC. rewrite F3'. destruct (writable ds f && matches (rname r) f) eqn:EW; auto. exfalso. apply NC.
      apply andb_true_iff in EW. destruct EW as [E1 E2]. apply writable_in in E1. apply matches_lit in E2; auto. split; auto. split; auto.
  - unfold ready. rewrite SC. repeat split; auto.
    + intros f _ (K & _ & _). tauto.
    + destruct VO as [o VO]. intros [V|V]; [congruence|]. elim (V o). auto.
Qed.

Lemma all_effect fuel f rs : In (f, false) ds -> Forall (fun r => Forall plain (rname r)) rs -> forall h j h' j', ready h ->
  fold_res (apply_one fuel c (map fst ds)) rs (h, j) = Ok (h', j') ->
  (exists r, last_such (concerns ds f) rs r /\ attr (h' c) f = Some (rval r)) \/
  ((forall r, In r rs -> ~ concerns ds f r) /\ attr (h' c) f = attr (h c) f).
Proof.
  intros If. induction rs as [|r rs IH]; intros FP h j h' j' R; cbn [fold_res].
  - intros [= <- <-]. right. split; auto.
  - apply Forall_cons_iff in FP. destruct FP as [Pr FP].
    destruct (apply_one fuel c (map fst ds) (h, j) r) as [[h1 j1]| |] eqn:E; try discriminate. intros F.
    destruct (one_effect _ _ _ _ _ R Pr E) as (R1 & A & B & _). cbn [fst] in *.
    destruct (IH FP _ _ _ _ R1 F) as [(r' & (l1 & l2 & -> & C & N) & V)|(N & V)].
    + left. exists r'. split; auto. exists (r :: l1), l2. auto.
    + assert (DC : {concerns ds f r} + {~ concerns ds f r}).
      { unfold concerns. assert (D1 : {In (rname r) (map fst ds)} + {~ In (rname r) (map fst ds)}) by (apply in_dec, list_eq_dec, ascii_dec).
        assert (D2 : {rname r = recording_detail} + {rname r <> recording_detail}) by apply list_eq_dec, ascii_dec.
        assert (D3 : {assignable (rval r)} + {~ assignable (rval r)}) by (destruct (rval r); cbn; auto).
        assert (D0 : {In (rname r) (map fst ds) \/ rname r = recording_detail} + {~ (In (rname r) (map fst ds) \/ rname r = recording_detail)}) by tauto.
        destruct D0 as [D0|D0]; [|right; tauto].
        assert (L : literal (rname r)).
        { apply word_lit. destruct D0 as [K|K]; [rewrite Forall_forall in W; now apply W|rewrite K; apply rec_word]. }
        assert (D4 : {part_of (rname r) f} + {~ part_of (rname r) f}).
        { destruct (matches (rname r) f) eqn:EM; [left; now apply matches_lit|right]. intros K. apply matches_lit in K; auto. congruence. }
        tauto. }
      destruct DC as [DC|DC].
      * left. exists r. split; [exists [], rs; auto|]. rewrite V. now apply A.
      * right. split; [intros x [<-|I]; auto|]. rewrite V. apply B. tauto.
Qed.

(** Attributes that are not writable fields never change. *)
Lemma all_rest fuel f rs : ~ In (f, false) ds -> Forall (fun r => Forall plain (rname r)) rs -> forall h j h' j', ready h ->
  fold_res (apply_one fuel c (map fst ds)) rs (h, j) = Ok (h', j') -> attr (h' c) f = attr (h c) f.
Proof.
  intros If. induction rs as [|r rs IH]; intros FP h j h' j' R; cbn [fold_res].
  - now intros [= <- <-].
  - apply Forall_cons_iff in FP. destruct FP as [Pr FP].
    destruct (apply_one fuel c (map fst ds) (h, j) r) as [[h1 j1]| |] eqn:E; try discriminate. intros F.
    destruct (one_effect _ _ _ _ _ R Pr E) as (R1 & A & B & _). cbn [fst] in *. rewrite (IH FP _ _ _ _ R1 F). apply B. tauto.
Qed.
Lemma all_others fuel o rs : o <> c -> Forall (fun r => Forall plain (rname r)) rs ->
  Forall (fun r => wide (rname r) = false \/ forall o, rval r <> VObj o) rs -> forall h j h' j', ready h ->
  fold_res (apply_one fuel c (map fst ds)) rs (h, j) = Ok (h', j') -> h' o = h o.
Proof.
  intros No. induction rs as [|r rs IH]; intros FP FW h j h' j' R; cbn [fold_res].
  - now intros [= <- <-].
  - apply Forall_cons_iff in FP. destruct FP as [Pr FP]. apply Forall_cons_iff in FW. destruct FW as [Fr FW].
    destruct (apply_one fuel c (map fst ds) (h, j) r) as [[h1 j1]| |] eqn:E; try discriminate. intros F.
    destruct (one_effect _ _ _ _ _ R Pr E) as (R1 & _ & _ & B). cbn [fst] in *. rewrite (IH FP FW _ _ _ _ R1 F). auto.
Qed.
(** Without type proxies and nested object settings nothing raises. *)
Lemma all_total fuel rs : Forall (fun r => Forall plain (rname r)) rs ->
  Forall (fun r => match rval r with VType _ => False | VObj _ => wide (rname r) = false | _ => True end) rs -> forall h j, ready h ->
  exists st, fold_res (apply_one (S fuel) c (map fst ds)) rs (h, j) = Ok st.
Proof.
  induction rs as [|r rs IH]; intros FP FW h j R; cbn [fold_res]; [eauto|].
  apply Forall_cons_iff in FP. destruct FP as [Pr FP]. apply Forall_cons_iff in FW. destruct FW as [Fr FW].
  assert (E : exists h1 j1, apply_one (S fuel) c (map fst ds) (h, j) r = Ok (h1, j1)).
  { unfold apply_one. cbn [fst snd]. destruct (negb _ && negb _); [eauto|]. destruct (rval r) as [| | |o| |]; try contradiction; eauto.
    destruct R as [D RP]. rewrite set_obj_own; [eauto|auto|rewrite D; auto]. }
  destruct E as (h1 & j1 & E). rewrite E. apply IH; auto. now apply (one_effect _ _ _ _ _ R Pr E).
Qed.
End One.

(** ** Sorting *)
Section Sort.
Context {R : Type} (prec : R -> Z).
Local Open Scope Z_scope.
Definition of_prec (k : Z) (r : R) : bool := prec r =? k.

Lemma first_seen_in ks k : In k (first_seen ks) <-> In k ks.
Proof.
  induction ks as [|x ks IH]; cbn; [tauto|]. rewrite filter_In, IH, negb_true_iff, Z.eqb_neq. destruct (Z.eq_dec x k); [subst; tauto|]. intuition.
Qed.
Lemma filter_filter {A} (p q : A -> bool) l : filter p (filter q l) = filter (fun x => q x && p x) l.
Proof. induction l as [|x l IH]; cbn; auto. destruct (q x); cbn; [destruct (p x); now rewrite IH|auto]. Qed.
Definition not_in (l : list Z) (x : Z) : bool := negb (existsb (Z.eqb x) l).
Lemma not_in_spec l x : not_in l x = true <-> ~ In x l.
Proof.
  unfold not_in. rewrite negb_true_iff, <- not_true_iff_false, existsb_exists. split; intros H I; apply H.
  - exists x. split; auto. apply Z.eqb_refl.
  - destruct I as (y & I & E). apply Z.eqb_eq in E. congruence.
Qed.
Lemma first_seen_app l1 l2 : first_seen (l1 ++ l2) = first_seen l1 ++ filter (not_in l1) (first_seen l2).
Proof.
  induction l1 as [|k l1 IH]; cbn [first_seen app].
  - symmetry. induction (first_seen l2) as [|x l IHl]; cbn; auto. now f_equal.
  - rewrite IH, filter_app, filter_filter. cbn [app]. do 2 f_equal. apply filter_ext. intros x. unfold not_in. cbn [existsb].
    now rewrite negb_orb, andb_comm.
Qed.
Lemma first_seen_nodup l : NoDup (first_seen l).
Proof.
  induction l as [|k l IH]; cbn; constructor; [|now apply NoDup_filter]. rewrite filter_In, negb_true_iff, Z.eqb_neq. tauto.
Qed.

Lemma group_spec ks (g : Z -> list R) r : NoDup ks ->
  group prec (map (fun k => (k, g k)) ks) r =
  if existsb (Z.eqb (prec r)) ks then map (fun k => (k, if k =? prec r then r :: g k else g k)) ks
  else map (fun k => (k, g k)) ks ++ [(prec r, [r])].
Proof.
  induction ks as [|k ks IH]; intros N; cbn [map group existsb app]; auto. inversion N as [|? ? Nk N']; subst.
  rewrite (Z.eqb_sym k (prec r)). destruct (prec r =? k) eqn:E; cbn [orb].
  - f_equal. apply map_ext_in. intros k' I. destruct (k' =? prec r) eqn:E'; auto. apply Z.eqb_eq in E, E'. congruence.
  - rewrite (IH N'). destruct (existsb (Z.eqb (prec r)) ks); reflexivity.
Qed.
Lemma groups q : fold_left (group prec) q [] = map (fun k => (k, rev (filter (of_prec k) q))) (first_seen (map prec q)).
Proof.
  induction q as [|r q IH] using rev_ind; auto. rewrite fold_left_app. cbn [fold_left]. rewrite IH, group_spec by apply first_seen_nodup.
  rewrite map_app, first_seen_app. cbn [map first_seen filter].
  assert (EX : existsb (Z.eqb (prec r)) (first_seen (map prec q)) = negb (not_in (map prec q) (prec r))).
  { unfold not_in. rewrite negb_involutive. apply eq_true_iff_eq. rewrite !existsb_exists. setoid_rewrite first_seen_in. reflexivity. }
  rewrite EX. destruct (not_in (map prec q) (prec r)) eqn:NI; cbn [negb].
  - apply not_in_spec in NI. rewrite map_app. cbn [map]. f_equal.
    + apply map_ext_in. intros k I. apply (proj1 (first_seen_in _ _)) in I. rewrite filter_app. cbn [filter]. change (of_prec k r) with (prec r =? k).
      destruct (prec r =? k) eqn:E; [apply Z.eqb_eq in E; rewrite <- E in I; elim (NI I)|]. now rewrite app_nil_r.
    + do 2 f_equal. rewrite filter_app. cbn [filter]. change (of_prec (prec r) r) with (prec r =? prec r). rewrite Z.eqb_refl, rev_app_distr. cbn. f_equal.
      assert (F : filter (of_prec (prec r)) q = []).
      { clear -NI. induction q as [|x q IHq]; auto. cbn [filter]. unfold of_prec at 1. destruct (prec x =? prec r) eqn:E.
        - apply Z.eqb_eq in E. elim NI. cbn. auto.
        - apply IHq. intros I. apply NI. cbn. auto. }
      now rewrite F.
  - rewrite app_nil_r. apply map_ext. intros k. rewrite filter_app. cbn [filter]. change (of_prec k r) with (prec r =? k). rewrite (Z.eqb_sym k).
    destruct (prec r =? k); [now rewrite rev_app_distr|now rewrite app_nil_r].
Qed.
Lemma push_all (l acc : list R) : fold_left (fun qq r => r :: qq) l acc = rev l ++ acc.
Proof. revert acc. induction l as [|x l IH]; intros acc; cbn; auto. now rewrite IH, <- app_assoc. Qed.
Lemma sort_eq q : sort_by_precedence prec q = flat_map (fun k => filter (of_prec k) q) (rev (first_seen (map prec q))).
Proof.
  unfold sort_by_precedence. rewrite groups. generalize (first_seen (map prec q)). intros ks.
  assert (H : forall acc, fold_left (fun qq kq => fold_left (fun qq r => r :: qq) (snd kq) qq)
     (map (fun k => (k, rev (filter (of_prec k) q))) ks) acc = flat_map (fun k => filter (of_prec k) q) (rev ks) ++ acc).
  { induction ks as [|k ks IH]; intros acc; cbn [map fold_left rev flat_map snd]; auto.
    rewrite IH, push_all, rev_involutive, flat_map_app. cbn. now rewrite app_nil_r, <- app_assoc. }
  rewrite H. now rewrite app_nil_r.
Qed.
End Sort.
