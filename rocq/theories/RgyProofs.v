(** Proofs about the proxies. *)
From Coq Require Import List Bool Arith Ascii Lia.
From Verif Require Import Prelude FactoryModel FactorySpec FactoryProofs FactoryProps SvModel SvSpec SvProps RgyModel RgySpec.
Import ListNotations.
Local Open Scope nat_scope.

Lemma kind_eqb_spec a b : kind_eqb a b = true <-> a = b.
Proof. destruct a, b; cbn; intuition discriminate. Qed.
Lemma kind_refl a : kind_eqb a a = true.
Proof. now destruct a. Qed.
Lemma fid_refl a : fid_eqb a a = true.
Proof. destruct a; cbn; apply Nat.eqb_refl. Qed.
Lemma fid_eqb_spec a b : fid_eqb a b = true <-> a = b.
Proof. destruct a, b; cbn; rewrite ?Nat.eqb_eq; split; try congruence; discriminate. Qed.
Lemma fid_sym a b : fid_eqb a b = fid_eqb b a.
Proof. destruct a, b; cbn; auto; apply Nat.eqb_sym. Qed.

Lemma under_is parent p : under parent p = override_path parent p.
Proof. destruct parent as [[|c f]|]; destruct p; reflexivity. Qed.
Lemma join_is name ctx parent : join (context_of ctx parent) name = object_path name ctx parent.
Proof. destruct ctx, parent; reflexivity. Qed.

Section R.
Context (wkind : nat -> rkind) (wname : nat -> nat) (wclass : nat -> nat) (plain_class : nat -> bool) (proper : nat -> bool).
Context (num : str -> nat) (txt : nat -> str).
Local Notation TN := (tname wname proper).
Local Notation latest := (latest wkind wname wclass plain_class).
Local Notation reached := (reached wkind wname wclass plain_class num).
Local Notation usable := (usable wkind wname wclass plain_class).
Local Notation rstep := (rstep wkind wname wclass plain_class proper num).
Local Notation rrun := (rrun wkind wname wclass plain_class proper num).

Lemma frun_snoc l o : frun TN (l ++ [o]) = fstep TN (frun TN l) o.
Proof. unfold frun. now rewrite fold_left_app. Qed.
Lemma rrun_snoc l o : rrun (l ++ [o]) = rstep (rrun l) o.
Proof. unfold rrun. now rewrite fold_left_app. Qed.

Record rinv (s : rst) (h : list rop) : Prop := {
  i_table : forall k n, table s k n = latest h k n;
  i_flag : forall k n, flag s k n = match latest h k n with Some _ => Some true | None => None end;
  i_cur : cur s = current h;
  i_service : service s = resets h;
  i_count : count s = tried h;
  i_facs : forall f, facs s f = frun TN (reached h f)
}.
Lemma get_usable s h w : rinv s h -> get wkind wname proper s w = if usable h w then Some s else None.
Proof. intros I. unfold get, RgySpec.usable. rewrite (i_flag _ _ I). now destruct (latest h _ _). Qed.
Lemma rinv_step s h o : rinv s h -> rinv (rstep s o) (o :: h).
Proof.
  intros I. pose proof I as [I1 I2 I3 I4 I5 I6]. destruct o as [|w w' r|w w' p parent|w nm ctx parent|f|]; cbn [RgyModel.rstep].
  - (* New *)
    unfold construct. rewrite I5. destruct (plain_class (tried h)) eqn:EP; cbn [negb].
    + set (w := tried h) in *. unfold get. cbn [flag]. unfold updk at 1. rewrite kind_refl, Nat.eqb_refl. cbn [andb fst].
      split; cbn [table flag facs cur service count on_factory].
      * intros k n. cbn [RgySpec.latest]. fold w. rewrite EP. unfold updk. cbn [andb].
        replace (kind_eqb (wkind w) k) with (kind_eqb k (wkind w)) by (destruct k, (wkind w); reflexivity). rewrite (Nat.eqb_sym (wname w)).
        destruct (kind_eqb k (wkind w) && Nat.eqb n (wname w)); auto.
      * intros k n. cbn [RgySpec.latest]. fold w. rewrite EP. unfold updk. cbn [andb].
        replace (kind_eqb (wkind w) k) with (kind_eqb k (wkind w)) by (destruct k, (wkind w); reflexivity). rewrite (Nat.eqb_sym (wname w)).
        destruct (kind_eqb k (wkind w) && Nat.eqb n (wname w)); auto.
      * exact I3.
      * exact I4.
      * reflexivity.
      * intros f. cbn [RgySpec.reached]. fold w. rewrite EP, I3. unfold updf. rewrite fid_sym. destruct (fid_eqb (current h) f) eqn:EF.
        -- apply fid_eqb_spec in EF. subst f. rewrite frun_snoc, I6. reflexivity.
        -- rewrite app_nil_r. apply I6.
    + split; cbn [table flag facs cur service count on_factory RgySpec.latest current resets tried RgySpec.reached]; rewrite ?EP; auto.
      intros f. destruct (fid_eqb (current h) f); rewrite app_nil_r; apply I6.
  - unfold set_type. rewrite (get_usable _ _ _ I). destruct (usable h w) eqn:EU; cbn [fst].
    + split; cbn [table flag facs cur service count on_factory RgySpec.latest current resets tried RgySpec.reached]; auto. intros f. rewrite EU, I3. unfold updf. rewrite fid_sym. destruct (fid_eqb (current h) f) eqn:EF.
      * apply fid_eqb_spec in EF. subst f. rewrite frun_snoc, I6. reflexivity.
      * rewrite app_nil_r. apply I6.
    + split; cbn [table flag facs cur service count on_factory RgySpec.latest current resets tried RgySpec.reached]; auto. intros f. rewrite EU. destruct (fid_eqb (current h) f); rewrite app_nil_r; apply I6.
  - unfold set_inst. rewrite (get_usable _ _ _ I). destruct (usable h w) eqn:EU; cbn [fst].
    + split; cbn [table flag facs cur service count on_factory RgySpec.latest current resets tried RgySpec.reached]; auto. intros f. rewrite EU, I3. unfold updf. rewrite fid_sym. destruct (fid_eqb (current h) f) eqn:EF.
      * apply fid_eqb_spec in EF. subst f. rewrite frun_snoc, I6, under_is. reflexivity.
      * rewrite app_nil_r. apply I6.
    + split; cbn [table flag facs cur service count on_factory RgySpec.latest current resets tried RgySpec.reached]; auto. intros f. rewrite EU. destruct (fid_eqb (current h) f); rewrite app_nil_r; apply I6.
  - rewrite (get_usable _ _ _ I). assert (I' : rinv s (Create w nm ctx parent :: h)).
    { split; cbn [table flag facs cur service count on_factory RgySpec.latest current resets tried RgySpec.reached]; auto. intros f. destruct (fid_eqb (current h) f); rewrite app_nil_r; apply I6. }
    destruct (usable h w); exact I'.
  - split; cbn [table flag facs cur service count on_factory RgySpec.latest current resets tried RgySpec.reached]; auto. intros f'. destruct (fid_eqb (current h) f'); rewrite app_nil_r; apply I6.
  - split; cbn [table flag facs cur service count on_factory RgySpec.latest current resets tried RgySpec.reached]; auto. intros f'. destruct (fid_eqb (current h) f'); rewrite app_nil_r; apply I6.
Qed.
Lemma rinv_run ops : rinv (rrun ops) (rev ops).
Proof.
  induction ops as [|o ops IH] using rev_ind.
  - split; reflexivity.
  - rewrite rrun_snoc, rev_app_distr. cbn. now apply rinv_step.
Qed.
Lemma reached_typed h f : by_type_only (reached h f).
Proof.
  induction h as [|o h IH]; cbn; [constructor|]. apply Forall_app. split; auto.
  destruct (fid_eqb _ _); [|constructor].
  destruct o; try (match goal with |- context [if ?b then _ else _] => destruct b end); repeat constructor.
Qed.

(** ** Factories without overrides *)
Lemma no_override_empty l : no_override l -> tovr (frun TN l) = [] /\ forall w, iovr (frun TN l) w = [].
Proof.
  induction l as [|o l IH] using rev_ind; intros HN; [split; reflexivity|]. rewrite frun_snoc.
  destruct (HN o) as [w ->]; [apply in_or_app; right; now left|]. cbn. apply IH. intros x Hx. apply HN. apply in_or_app. now left.
Qed.
Lemma no_override_find l fuel pristine path w : no_override l ->
  create_by_type TN (pmatch txt) (S fuel) pristine (frun TN l) w path = FType w.
Proof.
  intros HN. destruct (no_override_empty l HN) as [E1 E2]. unfold create_by_type, find. cbn [loop_index]. unfold matches. rewrite E1, E2. cbn. now destruct path.
Qed.
Lemma names_first l n : no_override l -> names (frun TN l) n = first_named TN l n.
Proof.
  induction l as [|o l IH] using rev_ind; intros HN; [reflexivity|]. rewrite frun_snoc.
  destruct (HN o) as [w ->]; [apply in_or_app; right; now left|].
  assert (HN' : no_override l) by (intros x Hx; apply HN; apply in_or_app; now left). specialize (IH HN').
  assert (FA : forall a b, first_named TN (a ++ b) n = match first_named TN a n with Some x => Some x | None => first_named TN b n end).
  { clear. induction a as [|x a IH]; intros b; cbn; auto. destruct x; auto. destruct (opt_eqb _ _); auto. }
  rewrite FA, <- IH. cbn [fstep register names first_named]. destruct (TN w) as [m|] eqn:EW; cbn [opt_eqb].
  - destruct (Nat.eqb_spec m n) as [->|NE].
    + destruct (names (frun TN l) n) eqn:E; [now rewrite E|]. apply upd_eq.
    + destruct (names (frun TN l) m); [|rewrite upd_neq by auto]; now destruct (names (frun TN l) n).
  - now destruct (names (frun TN l) n).
Qed.
Lemma by_name_none l fuel pristine n path : no_override l ->
  create_by_name TN (pmatch txt) nmatch fuel pristine (frun TN l) n path = match first_named TN l n with Some w => FType w | None => FNone end.
Proof.
  intros HN. destruct (no_override_empty l HN) as [E1 E2]. unfold create_by_name. rewrite E1. cbn [List.find].
  rewrite (names_first l n HN). destruct path as [p|]; auto. destruct (first_named TN l n); auto. rewrite E2. reflexivity.
Qed.
End R.
