From Coq Require Import ZArith List Bool Arith Lia.
From Verif Require Import Prelude ObjModel ObjSpec.
Import ListNotations.
Local Open Scope nat_scope.

Fixpoint size (t : tree) : nat :=
  match t with
  | TObj _ ts => S ((fix go l := match l with [] => 0 | a :: r => size a + go r end) ts)
  | _ => 1
  end.
Fixpoint sizes (l : list tree) : nat := match l with [] => 0 | a :: r => size a + sizes r end.
Lemma size_obj c ts : size (TObj c ts) = S (sizes ts).
Proof. reflexivity. Qed.
Lemma sizes_in t ts : In t ts -> size t <= sizes ts.
Proof. induction ts as [|a r IH]; [intros []|]. intros [->|I]; cbn; [lia|specialize (IH I); lia]. Qed.
Lemma sizes_in_lt t c ts : In t ts -> size t < size (TObj c ts).
Proof. intros I. rewrite size_obj. apply sizes_in in I. lia. Qed.

Lemma Forall2_in_l {A B} (P : A -> B -> Prop) l l' a :
  Forall2 P l l' -> In a l -> exists b, In b l' /\ P a b.
Proof.
  induction 1 as [|x y r r' Hp H IH]; [intros []|]. intros [->|I].
  - exists y. split; [now left|assumption].
  - destruct (IH I) as (b & Ib & Pb). exists b. split; [now right|assumption].
Qed.
Lemma Forall2_in_r {A B} (P : A -> B -> Prop) l l' b :
  Forall2 P l l' -> In b l' -> exists a, In a l /\ P a b.
Proof.
  induction 1 as [|x y r r' Hp H IH]; [intros []|]. intros [->|I].
  - exists x. split; [now left|assumption].
  - destruct (IH I) as (a & Ib & Pb). exists a. split; [now right|assumption].
Qed.
Lemma Forall2_impl_in {A B} (P Q : A -> B -> Prop) l l' :
  (forall a b, In a l -> In b l' -> P a b -> Q a b) -> Forall2 P l l' -> Forall2 Q l l'.
Proof.
  intros HI HF. induction HF as [|x y r r' Hp H IH]; constructor.
  - apply HI; [now left|now left|assumption].
  - apply IH. intros a b Ia Ib. apply HI; now right.
Qed.

Section Den.
Variable sel : nat -> list nat.

Lemma den_obj h v c ts :
  den sel h v (TObj c ts) <->
  exists o fl, v = VObj o /\ obj h o = Some (c, fl) /\
    Forall2 (fun f t => exists v', fl f = Some v' /\ den sel h v' t) (sel c) ts.
Proof.
  cbn [den]. split; intros (o & fl & E & Ho & D); exists o, fl; (split; [exact E|split; [exact Ho|]]).
  - clear Ho E. revert D. generalize (sel c). induction ts as [|t ts IH]; intros [|f fs] D; try contradiction; constructor.
    + apply D.
    + apply IH, D.
  - clear Ho E. induction D; [exact I|]. split; assumption.
Qed.

Lemma den_fun h : forall n t, size t <= n -> forall v t', den sel h v t -> den sel h v t' -> t = t'.
Proof.
  induction n as [|n IH]; intros t Hn v t' D D'.
  - destruct t; cbn in Hn; lia.
  - destruct t as [|z|s|k|c ts].
    1-4: cbn in D; subst v; destruct t' as [|z'|s'|k'|c' ts']; cbn [den] in D'; try discriminate D';
      try (injection D' as ->; reflexivity); try reflexivity;
      destruct D' as (? & ? & E & _); discriminate E.
    apply den_obj in D. destruct D as (o & fl & -> & Ho & F).
    destruct t' as [|z'|s'|k'|c' ts']; try (cbn in D'; discriminate D').
    apply den_obj in D'. destruct D' as (o' & fl' & E & Ho' & F').
    injection E as <-. rewrite Ho in Ho'. injection Ho' as <- <-.
    f_equal. rewrite size_obj in Hn.
    assert (Hn' : sizes ts <= n) by lia. clear Hn Ho. revert ts' F'.
    induction F as [|f t fs ts (v' & E1 & D1) F IHF]; intros ts' F'; inversion F' as [|? t2 ? ts2 (v2 & E2 & D2) F2]; subst; [reflexivity|].
    cbn in Hn'. f_equal.
    + rewrite E1 in E2. injection E2 as <-. apply (IH t ltac:(lia) v'); assumption.
    + apply IHF; [lia|assumption].
Qed.
Lemma den_det h v t t' : den sel h v t -> den sel h v t' -> t = t'.
Proof. apply (den_fun h (size t)). lia. Qed.

Lemma den_field h o c fl t f v :
  den sel h (VObj o) t -> obj h o = Some (c, fl) -> In f (sel c) -> fl f = Some v ->
  exists t', den sel h v t' /\ size t' < size t.
Proof.
  intros D Ho I Ef. destruct t as [|z|s|k|c' ts]; try discriminate D.
  apply den_obj in D. destruct D as (o' & fl' & E & Ho' & F). injection E as <-.
  rewrite Ho in Ho'. injection Ho' as <- <-.
  destruct (Forall2_in_l _ _ _ _ F I) as (t & It & v' & E' & D').
  rewrite Ef in E'. injection E' as <-. exists t. split; [assumption|]. now apply sizes_in_lt.
Qed.
Lemma den_has h o t : den sel h (VObj o) t -> exists c fl ts, obj h o = Some (c, fl) /\ t = TObj c ts /\
  Forall2 (fun f t => exists v', fl f = Some v' /\ den sel h v' t) (sel c) ts.
Proof.
  intros D. destruct t as [|z|s|k|c ts]; try discriminate D.
  apply den_obj in D. destruct D as (o' & fl' & E & Ho' & F). injection E as <-. exists c, fl', ts. auto.
Qed.
Lemma reach_den h v p : reach sel h v p -> forall t, den sel h v t ->
  exists t', den sel h (VObj p) t' /\ size t' <= size t.
Proof.
  induction 1 as [o|o c fl f v p Ho If Ef R IH]; intros t D.
  - exists t. split; [assumption|lia].
  - destruct (den_field h o c fl t f v D Ho If Ef) as (t1 & D1 & S1).
    destruct (IH t1 D1) as (t2 & D2 & S2). exists t2. split; [assumption|lia].
Qed.
Lemma reach_obj h v p t : reach sel h v p -> den sel h v t -> exists x, obj h p = Some x.
Proof.
  intros R D. destruct (reach_den h v p R t D) as (t' & D' & _).
  apply den_has in D'. destruct D' as (c & fl & ts & E & _). eauto.
Qed.
(** An object is not below its own fields. *)
Lemma no_cycle h o c fl f v t :
  den sel h (VObj o) t -> obj h o = Some (c, fl) -> In f (sel c) -> fl f = Some v -> ~ reach sel h v o.
Proof.
  intros D Ho If Ef R. destruct (den_field h o c fl t f v D Ho If Ef) as (t1 & D1 & S1).
  destruct (reach_den h v o R t1 D1) as (t2 & D2 & S2).
  rewrite (den_det h (VObj o) t t2 D D2) in S1. lia.
Qed.

Definition agree (h h' : heap) (v : val) := forall o, reach sel h v o -> obj h' o = obj h o.
Lemma agree_field h h' o c fl f v :
  agree h h' (VObj o) -> obj h o = Some (c, fl) -> In f (sel c) -> fl f = Some v -> agree h h' v.
Proof. intros A Ho If Ef p R. apply A. econstructor; eassumption. Qed.
Lemma den_frame h h' : forall n t, size t <= n -> forall v, agree h h' v -> den sel h v t -> den sel h' v t.
Proof.
  induction n as [|n IH]; intros t Hn v A D.
  - destruct t; cbn in Hn; lia.
  - destruct t as [|z|s|k|c ts]; try exact D.
    apply den_obj in D. destruct D as (o & fl & -> & Ho & F). apply den_obj.
    exists o, fl. split; [reflexivity|]. split; [rewrite A; [assumption|constructor]|].
    rewrite size_obj in Hn.
    refine (Forall2_impl_in _ _ _ _ _ F). intros f t If It (v' & E & D). exists v'. split; [assumption|].
    apply IH; [apply sizes_in in It; lia| |assumption].
    apply (agree_field h h' o c fl f v' A Ho If E).
Qed.
Lemma den_agree h h' v t : agree h h' v -> den sel h v t -> den sel h' v t.
Proof. apply (den_frame h h' (size t)). lia. Qed.
Lemma reach_agree h h' v p : reach sel h' v p -> agree h h' v -> reach sel h v p.
Proof.
  induction 1 as [o|o c fl f v p Ho If Ef R IH]; intros A.
  - constructor.
  - rewrite (A o (reach_self sel h o)) in Ho. econstructor; try eassumption.
    apply IH. eapply agree_field; eassumption.
Qed.
Lemma together_agree h h' v v' p q : together sel h' v v' p q -> agree h h' v -> agree h h' v' -> together sel h v v' p q.
Proof.
  induction 1 as [a b|a b c fl fl' f v v' p q Ha Hb If Ef Ef' T IH]; intros A A'.
  - constructor.
  - rewrite (A a (reach_self sel h a)) in Ha. rewrite (A' b (reach_self sel h b)) in Hb.
    apply (tog_field sel h a b c fl fl' f v v' p q Ha Hb If Ef Ef'). apply IH.
    + exact (agree_field h h' a c fl f v A Ha If Ef).
    + exact (agree_field h h' b c fl' f v' A' Hb If Ef').
Qed.
Lemma together_reach h v v' p q : together sel h v v' p q -> reach sel h v p /\ reach sel h v' q.
Proof.
  induction 1 as [a b|a b c fl fl' f v v' p q Ha Hb If Ef Ef' T [IH1 IH2]].
  - split; constructor.
  - split; econstructor; eassumption.
Qed.
Lemma reach_nonobj h v p : reach sel h v p -> exists o, v = VObj o.
Proof. destruct 1; eauto. Qed.
End Den.

Lemma land_one m k : (0 <= k)%Z -> negb (Z.land m (2 ^ k) =? 0)%Z = Z.testbit m k.
Proof.
  intros Hk. assert (E : Z.land m (2 ^ k) = if Z.testbit m k then (2 ^ k)%Z else 0%Z).
  { apply Z.bits_inj'. intros i Hi. rewrite Z.land_spec, Z.pow2_bits_eqb by assumption.
    destruct (Z.eqb_spec k i) as [<-|N].
    - rewrite andb_true_r. destruct (Z.testbit m k).
      + now rewrite Z.pow2_bits_true.
      + now rewrite Z.testbit_0_l.
    - rewrite andb_false_r. destruct (Z.testbit m k).
      + rewrite Z.pow2_bits_false by congruence. reflexivity.
      + now rewrite Z.testbit_0_l. }
  rewrite E. destruct (Z.testbit m k); [|reflexivity].
  apply negb_true_iff, Z.eqb_neq. pose proof (Z.pow_pos_nonneg 2 k ltac:(lia) Hk). lia.
Qed.
Lemma copyable_flag m : copyable m = flagged 1 2 m.
Proof.
  unfold copyable, flagged. change 1%Z with (2 ^ 0)%Z at 2. change 2%Z with (2 ^ 1)%Z at 2.
  rewrite (land_one m 0) by lia. rewrite <- (negb_involutive (Z.land m (2 ^ 1) =? 0)%Z), (land_one m 1) by lia.
  apply andb_comm.
Qed.
Lemma comparable_flag m : comparable m = flagged 4 8 m.
Proof.
  unfold comparable, flagged. change 4%Z with (2 ^ 2)%Z. change 8%Z with (2 ^ 3)%Z.
  rewrite (land_one m 2) by lia. rewrite <- (negb_involutive (Z.land m (2 ^ 3) =? 0)%Z), (land_one m 3) by lia.
  apply andb_comm.
Qed.

Section Copy.
Variable passes : nat -> list (list (nat * Z)).
Variable created : nat -> nat.
Variable init : nat -> attrs.
Hypothesis created_same : forall c, created c = c.
Notation L := (copied_fields passes).
Notation den' := (den L).
Notation reach' := (reach L).
Notation copy' := (copy passes created init).

Definition Post (h0 : heap) (self rhs : nat) (t : tree) (st' : cst) : Prop :=
  gmap st' = [] /\
  well_formed (hp st') /\ next h0 <= next (hp st') /\
  (forall o, o < next h0 -> o <> self -> obj (hp st') o = obj h0 o) /\
  den' (hp st') (VObj self) t /\
  (forall o, reach' (hp st') (VObj self) o -> o = self \/ next h0 <= o) /\
  exists org : nat -> nat, forall p q, together L (hp st') (VObj rhs) (VObj self) p q -> p = org q.

Definition Pre (st : cst) (self rhs : nat) (t : tree) : Prop :=
  well_formed (hp st) /\ den' (hp st) (VObj rhs) t /\
  (exists x, obj (hp st) self = Some x) /\ class_of (hp st) self = class_of (hp st) rhs /\
  ~ reach' (hp st) (VObj rhs) self /\
  forall a, In a (gmap st) -> ~ reach' (hp st) (VObj rhs) a.

Lemma setattr_obj h o f v c fl p :
  obj h o = Some (c, fl) ->
  obj (setattr h o f v) p = if Nat.eqb p o then Some (c, upd fl f (Some v)) else obj h p.
Proof.
  intros E. unfold setattr. rewrite E. cbn [obj]. unfold upd at 1.
  destruct (Nat.eq_dec p o) as [->|N].
  - now rewrite Nat.eqb_refl.
  - destruct (Nat.eqb_spec p o); [contradiction|]. reflexivity.
Qed.
Lemma setattr_next h o f v : next (setattr h o f v) = next h.
Proof. unfold setattr. destruct (obj h o) as [[? ?]|]; reflexivity. Qed.

Section Loop.
Variables (h0 : heap) (self rhs c : nat) (flR : attrs) (g0 : list nat) (t0 : tree).
Hypothesis Hwf : well_formed h0.
Hypothesis Hden : den' h0 (VObj rhs) t0.
Hypothesis HR : obj h0 rhs = Some (c, flR).
Hypothesis Hself : exists fl, obj h0 self = Some (c, fl).
Hypothesis Hnr : ~ reach' h0 (VObj rhs) self.
Hypothesis Hg0 : forall a, In a g0 -> ~ reach' h0 (VObj rhs) a.

Lemma self_lt : self < next h0.
Proof. destruct Hself as (fl & E). apply (Hwf _ _ E). Qed.
Lemma rhs_reach_lt o : reach' h0 (VObj rhs) o -> o < next h0 /\ o <> self.
Proof.
  intros R. split; [|intros ->; contradiction].
  destruct (reach_obj L h0 _ _ _ R Hden) as (x & E). apply (Hwf _ _ E).
Qed.

Definition J (dn : list nat) (st : cst) : Prop :=
  well_formed (hp st) /\ next h0 <= next (hp st) /\
  (forall o, o < next h0 -> o <> self -> obj (hp st) o = obj h0 o) /\
  (depth st = 1%Z /\ gmap st = rhs :: g0 \/ gmap st = []) /\
  exists flS, obj (hp st) self = Some (c, flS) /\
  exists org : nat -> nat, forall f, In f dn -> In f (L c) /\ exists v v' t,
    flR f = Some v /\ flS f = Some v' /\ den' h0 v t /\ den' (hp st) v' t /\
    (forall o, reach' (hp st) v' o -> next h0 <= o) /\
    (forall p q, together L (hp st) v v' p q -> p = org q).

Lemma agree_rhs h f v : (forall o, o < next h0 -> o <> self -> obj h o = obj h0 o) ->
  In f (L c) -> flR f = Some v -> agree L h0 h v.
Proof.
  intros A If Ef o R. assert (R' : reach' h0 (VObj rhs) o) by (econstructor; eassumption).
  apply rhs_reach_lt in R'. apply A; tauto.
Qed.
(** From one state of the copy to a later one, below a field of the source. *)
Lemma agree_rhs2 h h' f v :
  (forall o, o < next h0 -> o <> self -> obj h o = obj h0 o) ->
  (forall o, o < next h0 -> o <> self -> obj h' o = obj h0 o) ->
  In f (L c) -> flR f = Some v -> agree L h h' v.
Proof.
  intros A A' If Ef o R.
  assert (R0 : reach' h0 v o) by (apply (reach_agree L h0 h _ _ R); exact (agree_rhs h f v A If Ef)).
  assert (R' : reach' h0 (VObj rhs) o) by (econstructor; eassumption).
  apply rhs_reach_lt in R'. rewrite A, A'; tauto.
Qed.

(** Setting an attribute of the copy to a value already copied. *)
Lemma J_set dn st h1 g1 d1 f v v' tf flS org org1 :
  well_formed (hp st) -> next h0 <= next (hp st) ->
  (forall o, o < next h0 -> o <> self -> obj (hp st) o = obj h0 o) ->
  obj (hp st) self = Some (c, flS) ->
  (forall g, In g dn -> In g (L c) /\ exists w w' t,
    flR g = Some w /\ flS g = Some w' /\ den' h0 w t /\ den' (hp st) w' t /\
    (forall o, reach' (hp st) w' o -> next h0 <= o) /\
    (forall p q, together L (hp st) w w' p q -> p = org q)) ->
  In f (L c) -> flR f = Some v -> den' h0 v tf ->
  (* h1 adds objects only *)
  well_formed h1 -> next (hp st) <= next h1 -> (forall o, o < next (hp st) -> obj h1 o = obj (hp st) o) ->
  (d1 = 1%Z /\ g1 = rhs :: g0 \/ g1 = []) ->
  den' h1 v' tf -> (forall o, reach' h1 v' o -> next (hp st) <= o) ->
  (forall p q, together L h1 v v' p q -> p = org1 q) ->
  J (f :: dn) (Cst (setattr h1 self f v') g1 d1).
Proof.
  intros W N A ES K If Ev Df W1 N1 A1 G1 Dv' Fr' O'.
  pose proof self_lt as SL.
  assert (ES1 : obj h1 self = Some (c, flS)) by (rewrite A1 by lia; exact ES).
  set (h2 := setattr h1 self f v').
  assert (E2 : forall o, o <> self -> obj h2 o = obj h1 o).
  { intros o No. unfold h2. rewrite (setattr_obj _ _ _ _ _ _ o ES1). destruct (Nat.eqb_spec o self); [contradiction|reflexivity]. }
  assert (A2 : forall o, o < next h0 -> o <> self -> obj h2 o = obj h0 o).
  { intros o Lo No. rewrite E2 by exact No. rewrite A1 by lia. now apply A. }
  unfold J. cbn [hp gmap depth]. fold h2.
  assert (X : next h2 = next h1) by apply setattr_next.
  split; [|split; [|split; [|split]]].
  - intros o x. rewrite X. unfold h2. rewrite (setattr_obj _ _ _ _ _ _ o ES1).
    destruct (Nat.eqb_spec o self) as [->|]; [lia|apply W1].
  - lia.
  - exact A2.
  - exact G1.
  - exists (upd flS f (Some v')). split; [unfold h2; rewrite (setattr_obj _ _ _ _ _ _ self ES1), Nat.eqb_refl; reflexivity|].
    exists (fun q => if q <? next (hp st) then org q else org1 q).
    intros g Ig. destruct (Nat.eq_dec g f) as [->|Ngf].
    + split; [exact If|]. exists v, v', tf. split; [exact Ev|]. split; [apply upd_eq|]. split; [exact Df|].
      assert (AF : agree L h1 h2 v') by (intros o R; apply E2; apply Fr' in R; lia).
      split; [exact (den_agree L h1 h2 _ _ AF Dv')|].
      split; [intros o R; apply (reach_agree L h1 h2 _ _ R) in AF; apply Fr' in AF; lia|].
      intros p q T.
      assert (T1 : together L h1 v v' p q).
      { refine (together_agree L h1 h2 _ _ _ _ T _ AF). apply (agree_rhs2 h1 h2 f v); try assumption.
        intros o Lo No. rewrite A1 by lia. now apply A. }
      destruct (together_reach L _ _ _ _ _ T1) as (_ & Rq). apply Fr' in Rq.
      destruct (Nat.ltb_spec q (next (hp st))); [lia|]. now apply O'.
    + assert (Ig' : In g dn) by (destruct Ig as [->|Ig]; [contradiction|exact Ig]).
      destruct (K g Ig') as (IgL & w & w' & t & E1 & Ew & D1 & D2 & Fr & O). split; [exact IgL|].
      assert (LT : forall o, reach' (hp st) w' o -> o < next (hp st)).
      { intros o R. destruct (reach_obj L _ _ _ _ R D2) as (x & Ex). exact (W _ _ Ex). }
      assert (AF : agree L (hp st) h2 w').
      { intros o R. pose proof (Fr o R). pose proof (LT o R). rewrite E2 by lia. now apply A1. }
      exists w, w', t. split; [exact E1|]. split; [rewrite upd_neq by congruence; exact Ew|]. split; [exact D1|].
      split; [exact (den_agree L _ _ _ _ AF D2)|].
      split; [intros o R; apply Fr; exact (reach_agree L _ _ _ _ R AF)|].
      intros p q T.
      assert (T1 : together L (hp st) w w' p q).
      { refine (together_agree L (hp st) h2 _ _ _ _ T _ AF). apply (agree_rhs2 (hp st) h2 g w); assumption. }
      destruct (together_reach L _ _ _ _ _ T1) as (_ & Rq). apply LT in Rq.
      destruct (Nat.ltb_spec q (next (hp st))); [|lia]. now apply O.
Qed.

Lemma step_ok rec dn st f m :
  J dn st -> (flagged 1 2 m = true -> In f (L c)) ->
  (forall st1 self1 o t, Pre st1 self1 o t -> size t < size t0 ->
     exists st', rec st1 self1 o = Ok st' /\ Post (hp st1) self1 o t st') ->
  exists st', copy_field created init rec self rhs st (f, m) = Ok st' /\
    J (if flagged 1 2 m then f :: dn else dn) st'.
Proof.
  intros JJ If HRec. unfold copy_field. cbn [fst snd].
  rewrite ?copyable_flag; destruct (flagged 1 2 m); [|exists st; split; [reflexivity|exact JJ]].
  destruct JJ as (W & N & A & G & flS & ES & org & K).
  specialize (If eq_refl).
  assert (Efld : exists v, flR f = Some v).
  { destruct (den_has L _ _ _ Hden) as (c' & fl' & ts & E & _ & F). rewrite HR in E. injection E as <- <-.
    destruct (Forall2_in_l _ _ _ _ F If) as (? & _ & v & E & _). eauto. }
  destruct Efld as (v & Ev).
  assert (Eg : getattr (hp st) rhs f = Some v).
  { unfold getattr. rewrite A.
    - now rewrite HR.
    - apply rhs_reach_lt. constructor.
    - intros E. apply Hnr. rewrite E. constructor. }
  rewrite Eg.
  destruct (den_field L h0 rhs c flR t0 f v Hden HR If Ev) as (tf & Df & Sf).
  pose proof self_lt as SL.
  assert (Scalar : (forall o, v <> VObj o) ->
    J (f :: dn) (Cst (setattr (hp st) self f v) (gmap st) (depth st))).
  { intros Nv. apply (J_set dn st (hp st) (gmap st) (depth st) f v v tf flS org org W N A ES K If Ev Df W); auto.
    - destruct tf; try exact Df. apply den_obj in Df. destruct Df as (? & ? & E & _). now apply Nv in E.
    - intros o R. apply reach_nonobj in R. destruct R as (? & E). now apply Nv in E.
    - intros p q T. apply together_reach in T. destruct T as [T _]. apply reach_nonobj in T. destruct T as (? & E). now apply Nv in E. }
  destruct v as [|z|s|k|o]; try (eexists; split; [reflexivity|apply Scalar; discriminate]).
  clear Scalar.
  set (h1 := fst (create created init (hp st) o)). set (tmp := next (hp st)).
  assert (Ecr : create created init (hp st) o = (h1, tmp)) by reflexivity.
  rewrite Ecr.
  assert (Ro : reach' h0 (VObj rhs) o) by (econstructor; try eassumption; constructor).
  destruct (den_has L _ _ _ Df) as (co & flo & tso & Eo & -> & Fo).
  assert (Eo' : obj (hp st) o = Some (co, flo)) by (rewrite A; [exact Eo| |]; apply rhs_reach_lt; exact Ro).
  assert (Lo : o < tmp) by (apply (W _ _ Eo')).
  assert (Etmp : obj h1 tmp = Some (co, init co)).
  { unfold h1, create. cbn [fst]. rewrite Eo', created_same. cbn [obj]. apply upd_eq. }
  assert (A1 : forall p, p < next (hp st) -> obj h1 p = obj (hp st) p).
  { intros p Lp. unfold h1, create. cbn [fst obj]. apply upd_neq. unfold tmp in *. lia. }
  assert (N1 : next h1 = S (next (hp st))) by reflexivity.
  assert (A01 : forall p, p < next h0 -> p <> self -> obj h1 p = obj h0 p).
  { intros p Lp Np. rewrite A1 by lia. now apply A. }
  assert (AG : agree L h0 h1 (VObj o)) by (apply (agree_rhs h1 f (VObj o)); assumption).
  assert (P : Pre (Cst h1 (gmap st) (depth st)) tmp o (TObj co tso)).
  { unfold Pre. cbn [hp gmap]. split; [|split; [|split; [|split; [|split]]]].
    - intros p x Ep. rewrite N1. unfold h1, create in Ep. cbn [fst obj] in Ep.
      destruct (Nat.eq_dec p (next (hp st))) as [->|Np]; [lia|]. rewrite upd_neq in Ep by congruence. apply W in Ep. lia.
    - exact (den_agree L h0 h1 _ _ AG Df).
    - eauto.
    - unfold class_of. rewrite Etmp, (A1 o Lo), Eo'. reflexivity.
    - intros R. apply (reach_agree L h0 h1 _ _ R) in AG.
      assert (Rt : reach' h0 (VObj rhs) tmp) by (econstructor; eassumption).
      apply rhs_reach_lt in Rt. unfold tmp in Rt. lia.
    - intros a Ia R. apply (reach_agree L h0 h1 _ _ R) in AG.
      destruct G as [[_ G]|G]; rewrite G in Ia; [|destruct Ia]. destruct Ia as [<-|Ia].
      + exact (no_cycle L h0 rhs c flR f (VObj o) t0 Hden HR If Ev AG).
      + apply (Hg0 a Ia). econstructor; eassumption. }
  destruct (HRec _ _ _ _ P Sf) as (st2 & E2 & Po). rewrite E2. eexists. split; [reflexivity|].
  destruct Po as (G2 & W2 & N2 & A2 & D2 & R2 & org2 & O2). cbn [hp] in *.
  apply (J_set dn st (hp st2) (gmap st2) (depth st2) f (VObj o) (VObj tmp) (TObj co tso) flS org org2 W N A ES K If Ev Df W2); auto.
  - lia.
  - intros p Lp. rewrite A2; [now apply A1|lia|unfold tmp; lia].
  - intros p R. destruct (R2 p R) as [->|]; unfold tmp; lia.
Qed.

Lemma loop_ok rec :
  (forall st1 self1 o t, Pre st1 self1 o t -> size t < size t0 ->
     exists st', rec st1 self1 o = Ok st' /\ Post (hp st1) self1 o t st') ->
  forall fs dn st, J dn st -> (forall f m, In (f, m) fs -> flagged 1 2 m = true -> In f (L c)) ->
  exists st', foldr_res (copy_field created init rec self rhs) fs st = Ok st' /\
    J (rev (map fst (filter (fun f => flagged 1 2 (snd f)) fs)) ++ dn) st'.
Proof.
  intros HRec. induction fs as [|[f m] fs IH]; intros dn st JJ Hf; cbn [foldr_res].
  - exists st. split; [reflexivity|exact JJ].
  - destruct (step_ok rec dn st f m JJ (Hf f m (or_introl eq_refl)) HRec) as (st1 & E1 & J1). rewrite E1.
    destruct (IH _ _ J1 (fun f' m' I => Hf f' m' (or_intror I))) as (st2 & E2 & J2).
    exists st2. split; [exact E2|]. cbn [filter map snd]. destruct (flagged 1 2 m); [|exact J2].
    cbn [map rev fst]. rewrite <- app_assoc. exact J2.
Qed.
End Loop.

Lemma copy_ok : forall n t, size t <= n -> forall st self rhs, Pre st self rhs t ->
  exists st', copy' n st self rhs = Ok st' /\ Post (hp st) self rhs t st'.
Proof.
  induction n as [|n IH]; intros t Hn st self rhs P.
  - destruct t; cbn in Hn; lia.
  - destruct P as (W & D & (x & ES) & EC & NR & NG).
    destruct (den_has L _ _ _ D) as (c & flR & ts & ER & -> & F).
    destruct x as [c' flS]. unfold class_of in EC. rewrite ES, ER in EC. subst c'.
    cbn [copy].
    assert (NI : existsb (Nat.eqb rhs) (gmap st) = false).
    { apply not_true_is_false. intros E. apply existsb_exists in E. destruct E as (a & Ia & Ea).
      apply Nat.eqb_eq in Ea. subst a. apply (NG rhs Ia). constructor. }
    rewrite NI. unfold class_of. rewrite ES.
    assert (J0 : J (hp st) self rhs c flR (gmap st) [] (Cst (hp st) (rhs :: gmap st) 1)).
    { unfold J. cbn [hp gmap depth]. split; [exact W|]. split; [lia|]. split; [auto|]. split; [now left|].
      exists flS. split; [exact ES|]. exists (fun q => q). intros f []. }
    assert (HF : forall f m, In (f, m) (concat (passes c)) -> flagged 1 2 m = true -> In f (L c)).
    { intros f m I C. unfold copied_fields. apply in_map_iff. exists (f, m). split; [reflexivity|].
      apply filter_In. split; assumption. }
    destruct (loop_ok (hp st) self rhs c flR (gmap st) (TObj c ts) W D ER (ex_intro _ flS ES) NR NG (copy' n)
               (fun st1 self1 o t P S => IH t ltac:(lia) st1 self1 o P) _ _ _ J0 HF) as (st1 & E1 & J1).
    rewrite E1. eexists. split; [reflexivity|].
    rewrite app_nil_r in J1. destruct J1 as (W1 & N1 & A1 & G1 & flS1 & ES1 & org & K).
    unfold Post. cbn [hp gmap depth].
    assert (K' : forall f, In f (L c) -> exists v v' t, flR f = Some v /\ flS1 f = Some v' /\ den' (hp st) v t /\ den' (hp st1) v' t /\
      (forall o, reach' (hp st1) v' o -> next (hp st) <= o) /\ (forall p q, together L (hp st1) v v' p q -> p = org q)).
    { intros f I. apply (K f). apply -> in_rev. exact I. }
    pose proof (W _ _ ES) as SL.
    split; [|split; [exact W1|split; [exact N1|split; [exact A1|split; [|split]]]]].
    + destruct G1 as [[G1 _]|G1]; rewrite G1; [reflexivity|]. destruct (depth st1 - 1 =? 0)%Z; reflexivity.
    + apply den_obj. exists self, flS1. split; [reflexivity|]. split; [exact ES1|].
      refine (Forall2_impl_in _ _ _ _ _ F). intros f t If It (v & Ev & Dv).
      destruct (K' f If) as (v1 & v' & t' & Ev1 & Ev' & D1 & D' & _).
      rewrite Ev in Ev1. injection Ev1 as <-. rewrite (den_det L _ _ _ _ Dv D1). eauto.
    + intros o R. inversion R as [|? c2 fl2 f v p Ho If Ef Rf]; subst; [now left|right].
      rewrite ES1 in Ho. injection Ho as <- <-.
      destruct (K' f If) as (v1 & v' & t' & Ev1 & Ev' & D1 & D' & Fr & _).
      rewrite Ef in Ev'. injection Ev' as <-. now apply Fr.
    + exists (fun q => if Nat.eqb q self then rhs else org q). intros p q T.
      inversion T as [|? ? c2 fl2 fl3 f v v' ? ? Ha Hb If Ef Ef' Tf]; subst; [now rewrite Nat.eqb_refl|].
      rewrite ES1 in Hb. injection Hb as <- <-.
      assert (Ea : obj (hp st1) rhs = Some (c, flR)).
      { rewrite A1; [exact ER|apply (W _ _ ER)|]. intros E. apply NR. rewrite E. constructor. }
      rewrite Ea in Ha. injection Ha as <-.
      destruct (K' f If) as (v1 & v2 & t' & Ev1 & Ev' & D1 & D' & Fr & O).
      rewrite Ef in Ev1. rewrite Ef' in Ev'. injection Ev1 as <-. injection Ev' as <-.
      pose proof (together_reach L _ _ _ _ _ Tf) as (_ & Rq). apply Fr in Rq.
      destruct (Nat.eqb_spec q self); [lia|]. now apply O.
Qed.
End Copy.

Lemma shape_obj c1 l1 c2 l2 : same_shape (TObj c1 l1) (TObj c2 l2) <-> c1 = c2 /\ Forall2 same_shape l1 l2.
Proof.
  cbn [same_shape]. split; intros (E & S); (split; [exact E|]); clear E.
  - revert l2 S. induction l1 as [|a l1 IH]; intros [|b l2] S; try contradiction; constructor; [apply S|apply IH, S].
  - induction S; [exact I|split; assumption].
Qed.
Lemma same_shape_refl : forall t, same_shape t t.
Proof.
  assert (H : forall n t, size t <= n -> same_shape t t).
  { induction n as [|n IH]; intros t Hn; [destruct t; cbn in Hn; lia|].
    destruct t as [|z|s|k|c ts]; try reflexivity. apply shape_obj. split; [reflexivity|].
    rewrite size_obj in Hn. assert (Hn' : sizes ts <= n) by lia. clear Hn.
    induction ts as [|a ts IHt]; constructor; cbn in Hn'; [apply IH; lia|apply IHt; lia]. }
  intros t. apply (H (size t)). lia.
Qed.
Lemma shape_scalar t1 t2 : same_shape t1 t2 ->
  t1 = t2 \/ (exists a b, t1 = TInt a /\ t2 = TInt b) \/ (exists c l1 l2, t1 = TObj c l1 /\ t2 = TObj c l2).
Proof.
  destruct t1 as [|z|s|k|c ts], t2 as [|z'|s'|k'|c' ts']; intros S; try (left; exact S).
  - right. left. eauto.
  - right. right. apply shape_obj in S. destruct S as (-> & _). eauto.
Qed.

Lemma val_eqb_eq a b : val_eqb a b = true <-> a = b.
Proof.
  split.
  - destruct a, b; cbn; try discriminate; try reflexivity; intros E.
    + apply Z.eqb_eq in E. now subst.
    + apply Nat.eqb_eq in E. now subst.
    + apply Nat.eqb_eq in E. now subst.
    + apply Nat.eqb_eq in E. now subst.
  - intros <-. destruct a; cbn; try reflexivity; try apply Nat.eqb_refl. apply Z.eqb_refl.
Qed.
Lemma mask_all size : (size <= 64)%Z -> Z.shiftr (-1) (64 - size) = (-1)%Z.
Proof.
  intros H. rewrite Z.shiftr_div_pow2 by lia.
  assert (P : (0 < 2 ^ (64 - size))%Z) by (apply Z.pow_pos_nonneg; lia).
  symmetry. apply (Z.div_unique (-1) (2 ^ (64 - size)) (-1) (2 ^ (64 - size) - 1)); lia.
Qed.
Lemma compare_field_int_eq a b size : (size <= 64)%Z -> compare_field_int a b size = (a =? b)%Z.
Proof. intros H. unfold compare_field_int. rewrite (mask_all size H), !Z.land_m1_r. reflexivity. Qed.

Section Compare.
Variable passes : nat -> list (list (nat * Z)).
Variables (check_type : bool) (show_max : Z) (do_compare : nat -> nat -> bool).
Variable h : heap.
Variable Rel : nat -> nat -> Prop.
Hypothesis RelF : forall p p' q, Rel p q -> Rel p' q -> p = p'.
Notation C := (compared_fields passes).
Notation den' := (den C h).
Notation reach' := (reach C h).
Notation cmp := (compare passes false check_type show_max do_compare).

Definition same_value (l r : val) := forall t1 t2, den' l t1 -> den' r t2 -> t1 = t2.
Definition CInv (A : list nat) (st : mst) : Prop :=
  (0 <= result st)%Z /\ 1 <= sdepth st /\
  forall r l, lookup r (cmap st) = Some l ->
    Rel l r /\ (In r A \/ result st <> 0%Z \/ same_value (VObj l) (VObj r)).
Definition CPost (A : list nat) (st st' : mst) (eq : Prop) : Prop :=
  CInv A st' /\ sdepth st' = sdepth st /\ (result st' = 0%Z <-> result st = 0%Z /\ eq).

Section Fields.
Variables (A : list nat) (l r c : nat) (fl flr : attrs) (n : nat).
Variables (t1 t2 : tree).
Variable rec : mst -> nat -> nat -> res (mst * bool).
Hypothesis Hl : obj h l = Some (c, fl).
Hypothesis Hr : obj h r = Some (c, flr).
Hypothesis Dl : den' (VObj l) t1.
Hypothesis Dr : den' (VObj r) t2.
Hypothesis Sh : same_shape t1 t2.
Hypothesis Ho : forall p q, together C h (VObj l) (VObj r) p q -> Rel p q.
Hypothesis HA : forall a, In a A -> ~ reach' (VObj r) a.
Hypothesis HRec : forall st l' r' ta tb,
  den' (VObj l') ta -> den' (VObj r') tb -> same_shape ta tb -> size ta < size t1 ->
  (forall p q, together C h (VObj l') (VObj r') p q -> Rel p q) ->
  (forall a, In a (r :: A) -> ~ reach' (VObj r') a) ->
  CInv (r :: A) st -> 2 <= sdepth st ->
  exists st' b, rec st l' r' = Ok (st', b) /\ CPost (r :: A) st st' (ta = tb).

Definition feq (f : nat) : Prop :=
  forall vl vr, fl f = Some vl -> flr f = Some vr -> same_value vl vr.

Lemma fields_at f : In f (C c) -> exists vl vr ta tb,
  fl f = Some vl /\ flr f = Some vr /\ den' vl ta /\ den' vr tb /\ same_shape ta tb /\ size ta < size t1.
Proof.
  intros If.
  destruct (den_has C h _ _ Dl) as (c1 & fl1 & ts1 & E1 & -> & F1). rewrite Hl in E1. injection E1 as <- <-.
  destruct (den_has C h _ _ Dr) as (c2 & fl2 & ts2 & E2 & -> & F2). rewrite Hr in E2. injection E2 as <- <-.
  apply shape_obj in Sh. destruct Sh as (_ & F3).
  assert (X : forall t, In t ts1 -> size t < size (TObj c ts1)) by (intros t; apply sizes_in_lt).
  clear Hl Hr Dl Dr Ho HA HRec Sh. revert X If F1 F2 F3. generalize (size (TObj c ts1)) as N. generalize (C c) as fs.
  intros fs N X If F1 F2 F3. revert ts2 F2 F3.
  induction F1 as [|g a fs ts1 (v & Ev & Dv) F1 IH]; intros ts2 F2 F3; [destruct If|].
  inversion F2 as [|? b ? ts2' (w & Ew & Dw) F2']; subst. inversion F3 as [|? ? ? ? Sab F3']; subst.
  destruct If as [->|If].
  - exists v, w, a, b. split; [exact Ev|]. split; [exact Ew|]. split; [exact Dv|]. split; [exact Dw|]. split; [exact Sab|].
    apply X. now left.
  - apply (IH (fun t I => X t (or_intror I)) If ts2' F2' F3').
Qed.

Lemma feq_all : t1 = t2 <-> forall f, In f (C c) -> feq f.
Proof.
  split.
  - intros E f If vl vr El Er ta tb Da Db. subst t2.
    destruct (den_has C h _ _ Dl) as (c1 & fl1 & ts1 & E1 & Et1 & F1). rewrite Hl in E1. injection E1 as <- <-.
    destruct (den_has C h _ _ Dr) as (c2 & fl2 & ts2 & E2 & Et2 & F2). rewrite Hr in E2. injection E2 as <- <-.
    rewrite Et1 in Et2. injection Et2 as <-.
    clear Dl Dr Ho HA HRec Sh Hl Hr Et1. revert If F1 F2. generalize (C c) as fs.
    induction ts1 as [|t ts IH]; intros fs If F1 F2; inversion F1 as [|g ? fs' ? (v & Ev & Dv) F1']; subst; [destruct If|].
    inversion F2 as [|? ? ? ? (w & Ew & Dw) F2']; subst. destruct If as [->|If]; [|apply (IH _ If F1' F2')].
    rewrite El in Ev. rewrite Er in Ew. injection Ev as <-. injection Ew as <-.
    rewrite (den_det C h _ _ _ Da Dv), (den_det C h _ _ _ Db Dw). reflexivity.
  - intros Q.
    destruct (den_has C h _ _ Dl) as (c1 & fl1 & ts1 & E1 & -> & F1). rewrite Hl in E1. injection E1 as <- <-.
    destruct (den_has C h _ _ Dr) as (c2 & fl2 & ts2 & E2 & -> & F2). rewrite Hr in E2. injection E2 as <- <-.
    f_equal. clear Dl Dr Ho HA HRec Sh Hl Hr. revert Q ts2 F2. induction F1 as [|g a fs ts1 (v & Ev & Dv) F1 IH]; intros Q ts2 F2; inversion F2 as [|? b ? ts2' (w & Ew & Dw) F2']; subst; [reflexivity|].
    f_equal.
    + exact (Q g (or_introl eq_refl) v w Ev Ew a b Dv Dw).
    + apply IH; [|assumption]. intros f If. apply Q. now right.
Qed.

Lemma CInv_miss st B : CInv B st -> CInv B (miss st).
Proof.
  intros (R & S & K). unfold miss, CInv. cbn [result sdepth cmap]. split; [lia|]. split; [exact S|].
  intros r' l' E. apply K in E. destruct E as (E & K'). split; [exact E|]. right. left. lia.
Qed.
Lemma CInv_depth st B d : CInv B st -> 1 <= d -> CInv B (Mst (result st) (cmap st) d).
Proof. intros (R & S & K) Hd. split; [exact R|]. split; [exact Hd|exact K]. Qed.

Lemma one_ok st f vl vr : In f (C c) -> fl f = Some vl -> flr f = Some vr -> vl <> vr -> CInv (r :: A) st ->
  exists st', compare_one false h rec st vl vr = Ok st' /\ CPost (r :: A) st st' (feq f).
Proof.
  intros If El Er Nv K. destruct (fields_at f If) as (vl' & vr' & ta & tb & El' & Er' & Da & Db & Sab & Sz).
  rewrite El in El'. rewrite Er in Er'. injection El' as <-. injection Er' as <-.
  assert (FQ : feq f <-> ta = tb).
  { split; [intros Q; exact (Q vl vr El Er ta tb Da Db)|].
    intros E vl' vr' El' Er' t1' t2' D1 D2. rewrite El in El'. rewrite Er in Er'. injection El' as <-. injection Er' as <-.
    rewrite (den_det C h _ _ _ D1 Da), (den_det C h _ _ _ D2 Db). exact E. }
  destruct (shape_scalar ta tb Sab) as [E|[(a & b & -> & ->)|(cc & l1 & l2 & -> & ->)]].
  - (* same tree: only objects can be different values *)
    subst tb. destruct ta as [|z|s|k|cc ts]; try (cbn in Da, Db; exfalso; apply Nv; congruence).
    pose proof Da as Da0. pose proof Db as Db0.
    apply den_obj in Da. destruct Da as (ol & ? & -> & _). apply den_obj in Db. destruct Db as (or & ? & -> & _).
    cbn [compare_one].
    destruct (HRec (Mst (result st) (cmap st) (S (sdepth st))) ol or _ _ Da0 Db0 Sab Sz) as (st' & b & E & P).
    + intros p q T. apply Ho. exact (tog_field C h l r c fl flr f _ _ p q Hl Hr If El Er T).
    + intros a Ia R. destruct Ia as [<-|Ia].
      * exact (no_cycle C h r c flr f _ t2 Dr Hr If Er R).
      * apply (HA a Ia). exact (reach_field C h r c flr f _ a Hr If Er R).
    + apply CInv_depth; [exact K|lia].
    + cbn. destruct K as (_ & K & _). lia.
    + rewrite E. eexists. split; [reflexivity|]. destruct P as (I' & Sd & R'). cbn [result sdepth cmap] in *.
      split; [apply CInv_depth; [exact I'|destruct K as (_ & K & _); lia]|]. cbn [sdepth result]. split; [lia|].
      rewrite R'. rewrite FQ. reflexivity.
  - cbn in Da, Db. subst vl vr. cbn [compare_one]. unfold compare_field. cbn [Z.leb Z.compare].
    rewrite compare_field_int_eq by lia. destruct (Z.eqb_spec a b) as [->|N]; [congruence|].
    eexists. split; [reflexivity|]. split; [apply CInv_miss, K|]. split; [reflexivity|].
    unfold miss. cbn [result]. rewrite FQ. destruct K as (K & _). split; [lia|]. intros (_ & E). congruence.
  - pose proof Da as Da0. pose proof Db as Db0.
    apply den_obj in Da. destruct Da as (ol & ? & -> & _). apply den_obj in Db. destruct Db as (or & ? & -> & _).
    cbn [compare_one].
    destruct (HRec (Mst (result st) (cmap st) (S (sdepth st))) ol or _ _ Da0 Db0 Sab Sz) as (st' & b & E & P).
    + intros p q T. apply Ho. exact (tog_field C h l r c fl flr f _ _ p q Hl Hr If El Er T).
    + intros a Ia R. destruct Ia as [<-|Ia].
      * exact (no_cycle C h r c flr f _ t2 Dr Hr If Er R).
      * apply (HA a Ia). exact (reach_field C h r c flr f _ a Hr If Er R).
    + apply CInv_depth; [exact K|lia].
    + cbn. destruct K as (_ & K & _). lia.
    + rewrite E. eexists. split; [reflexivity|]. destruct P as (I' & Sd & R'). cbn [result sdepth cmap] in *.
      split; [apply CInv_depth; [exact I'|destruct K as (_ & K & _); lia]|]. cbn [sdepth result]. split; [lia|].
      rewrite R'. rewrite FQ. reflexivity.
Qed.

Definition cmpf (fs : list (nat * Z)) := map fst (filter (fun f => flagged 4 8 (snd f)) fs).
Lemma pass_ok : forall fs st, (forall f, In f (cmpf fs) -> In f (C c)) -> CInv (r :: A) st ->
  exists st', compare_pass false show_max h rec l r fs st = Ok st' /\
    CPost (r :: A) st st' (forall f, In f (cmpf fs) -> feq f).
Proof.
  induction fs as [|[f m] fs IH]; intros st Hf K; cbn [compare_pass].
  - exists st. split; [reflexivity|]. split; [exact K|]. split; [reflexivity|].
    split; [intros E; split; [exact E|intros ? []]|tauto].
  - cbn [fst snd]. unfold cmpf in *. cbn [filter map snd] in *. rewrite comparable_flag. destruct (flagged 4 8 m) eqn:Em; [|apply IH; assumption].
    cbn [map fst] in *.
    assert (If : In f (C c)) by (apply Hf; now left).
    destruct (fields_at f If) as (vl & vr & ta & tb & El & Er & Da & Db & Sab & Sz).
    unfold getattr. rewrite Hl, Hr, El, Er.
    destruct (val_eqb vr vl) eqn:Ev.
    + apply val_eqb_eq in Ev. subst vr.
      assert (Q : feq f).
      { intros v1 v2 E1 E2 x y D1 D2. rewrite El in E1. rewrite Er in E2. injection E1 as <-. injection E2 as <-.
        exact (den_det C h _ _ _ D1 D2). }
      destruct (IH st (fun g I => Hf g (or_intror I)) K) as (st' & E & I' & Sd & R'). exists st'.
      split; [exact E|]. split; [exact I'|]. split; [exact Sd|]. rewrite R'. split.
      * intros (R0 & F). split; [exact R0|]. intros g [<-|Ig]; [exact Q|now apply F].
      * intros (R0 & F). split; [exact R0|]. intros g Ig. apply F. now right.
    + assert (Nv : vl <> vr) by (intros E; subst vr; rewrite (proj2 (val_eqb_eq vl vl) eq_refl) in Ev; discriminate Ev).
      destruct (one_ok st f vl vr If El Er Nv K) as (st1 & E1 & I1 & Sd1 & R1). rewrite E1.
      destruct (negb (result st1 =? 0)%Z && (show_max <=? result st1)%Z) eqn:Eb.
      * exists st1. split; [reflexivity|]. split; [exact I1|]. split; [exact Sd1|].
        apply andb_true_iff in Eb. destruct Eb as (Eb & _). apply negb_true_iff, Z.eqb_neq in Eb.
        split; [intros E; contradiction|]. intros (R0 & F). exfalso. apply Eb. apply R1. split; [exact R0|]. apply F. now left.
      * destruct (IH st1 (fun g I => Hf g (or_intror I)) I1) as (st' & E & I' & Sd & R'). exists st'.
        split; [exact E|]. split; [exact I'|]. split; [congruence|]. rewrite R', R1. split.
        -- intros ((R0 & Q) & F). split; [exact R0|]. intros g [<-|Ig]; [exact Q|now apply F].
        -- intros (R0 & F). split; [split; [exact R0|apply F; now left]|]. intros g Ig. apply F. now right.
Qed.
Lemma passes_ok : forall ps st, (forall f, In f (cmpf (concat ps)) -> In f (C c)) -> CInv (r :: A) st ->
  exists st', foldr_res (fun st fs => compare_pass false show_max h rec l r fs st) ps st = Ok st' /\
    CPost (r :: A) st st' (forall f, In f (cmpf (concat ps)) -> feq f).
Proof.
  induction ps as [|fs ps IH]; intros st Hf K; cbn [foldr_res concat].
  - exists st. split; [reflexivity|]. split; [exact K|]. split; [reflexivity|].
    split; [intros E; split; [exact E|intros ? []]|tauto].
  - assert (App : forall f, In f (cmpf (concat (fs :: ps))) <-> In f (cmpf fs) \/ In f (cmpf (concat ps))).
    { intros f. cbn [concat]. unfold cmpf. rewrite filter_app, map_app, in_app_iff. reflexivity. }
    destruct (pass_ok fs st) as (st1 & E1 & I1 & Sd1 & R1); [|exact K|].
    { intros f I. apply Hf, App. now left. }
    rewrite E1. destruct (IH st1) as (st2 & E2 & I2 & Sd2 & R2); [|exact I1|].
    { intros f I. apply Hf, App. now right. }
    exists st2. split; [exact E2|]. split; [exact I2|]. split; [congruence|]. rewrite R2, R1. split.
    + intros ((R0 & Q) & F). split; [exact R0|]. intros f I. apply App in I. destruct I; auto.
    + intros (R0 & F). split; [split; [exact R0|]|]; intros f I; apply F, App; auto.
Qed.
End Fields.

Lemma lookup_cons r l m r' : lookup r' ((r, l) :: m) = if Nat.eqb r r' then Some l else lookup r' m.
Proof. reflexivity. Qed.

(** A compare with an object not yet seen. *)
Lemma body_ok n A st l r t1 t2 :
  (forall st l' r' ta tb, den' (VObj l') ta -> den' (VObj r') tb -> same_shape ta tb -> size ta < size t1 ->
    (forall p q, together C h (VObj l') (VObj r') p q -> Rel p q) ->
    (forall a, In a (r :: A) -> ~ reach' (VObj r') a) ->
    CInv (r :: A) st -> 2 <= sdepth st ->
    exists st' b, cmp n h st l' r' = Ok (st', b) /\ CPost (r :: A) st st' (ta = tb)) ->
  den' (VObj l) t1 -> den' (VObj r) t2 -> same_shape t1 t2 ->
  (forall p q, together C h (VObj l) (VObj r) p q -> Rel p q) ->
  (forall a, In a A -> ~ reach' (VObj r) a) ->
  CInv A st -> lookup r (cmap st) = None ->
  exists st', foldr_res (fun st fs => compare_pass false show_max h (cmp n h) l r fs st) (passes (class_of h l))
      (Mst (result st) ((r, l) :: cmap st) (sdepth st)) = Ok st' /\
    CPost A st st' (t1 = t2).
Proof.
  intros HRec Dl Dr Sh Ho HA K EL.
  destruct (den_has C h _ _ Dl) as (c & fl & ts1 & Hl & Et1 & _).
  destruct (den_has C h _ _ Dr) as (c2 & flr & ts2 & Hr & Et2 & _).
  assert (c2 = c) by (rewrite Et1, Et2 in Sh; apply shape_obj in Sh; symmetry; apply Sh). subst c2.
  assert (K' : CInv (r :: A) (Mst (result st) ((r, l) :: cmap st) (sdepth st))).
  { destruct K as (R & S & K). split; [exact R|]. split; [exact S|]. cbn [cmap result]. intros r' l' E.
    rewrite lookup_cons in E. destruct (Nat.eqb_spec r r') as [<-|N].
    - injection E as <-. split; [apply Ho; constructor|]. left. now left.
    - apply K in E. destruct E as (E & E'). split; [exact E|]. destruct E' as [I|E']; [left; now right|now right]. }
  unfold class_of. rewrite Hl.
  destruct (passes_ok A l r c fl flr t1 t2 (cmp n h) Hl Hr Dl Dr Sh Ho HA HRec (passes c) _ (fun f I => I) K') as (st' & E & I' & Sd & R').
  exists st'. split; [exact E|]. cbn [sdepth result] in *.
  assert (Q : result st' = 0%Z <-> result st = 0%Z /\ t1 = t2).
  { rewrite R'. rewrite (feq_all A l r c fl flr t1 t2 (cmp n h) Hl Hr Dl Dr Sh HRec). reflexivity. }
  split; [|split; [exact Sd|exact Q]].
  destruct I' as (R0 & S0 & K0). split; [exact R0|]. split; [exact S0|]. intros r' l' E'.
  apply K0 in E'. destruct E' as (E1 & E2). split; [exact E1|].
  destruct E2 as [[<-|I]|E2]; [|now left|now right].
  right. destruct (Z.eq_dec (result st') 0) as [Z0|]; [|now left]. right.
  apply Q in Z0. destruct Z0 as (_ & Et).
  assert (El : l' = l) by (apply (RelF _ _ r E1); apply Ho; constructor).
  intros a b Da Db. rewrite El in Da. rewrite (den_det C h _ _ _ Da Dl), (den_det C h _ _ _ Db Dr). exact Et.
Qed.

Lemma nested_ok : forall n t1, size t1 <= n -> forall A st l r t2,
  den' (VObj l) t1 -> den' (VObj r) t2 -> same_shape t1 t2 ->
  (forall p q, together C h (VObj l) (VObj r) p q -> Rel p q) ->
  (forall a, In a A -> ~ reach' (VObj r) a) ->
  CInv A st -> 2 <= sdepth st ->
  exists st' b, cmp n h st l r = Ok (st', b) /\ CPost A st st' (t1 = t2).
Proof.
  induction n as [|n IH]; intros t1 Hn A st l r t2 Dl Dr Sh Ho HA K Sd.
  - destruct t1; cbn in Hn; lia.
  - cbn [compare]. assert (E0 : (sdepth st =? 0)%nat = false) by (apply Nat.eqb_neq; lia). rewrite E0.
    assert (E1 : (sdepth st =? 1)%nat = false) by (apply Nat.eqb_neq; lia).
    destruct (lookup r (cmap st)) as [l'|] eqn:EL.
    + destruct K as (R & S & K). pose proof (K _ _ EL) as (Eo & Q).
      assert (El : l' = l) by (apply (RelF _ _ r Eo); apply Ho; constructor). clear Eo. subst l'.
      rewrite Nat.eqb_refl. rewrite E1. destruct st as [rs cm sd]. cbn [result cmap sdepth] in *.
      eexists _, _. split; [reflexivity|]. split; [split; [exact R|split; [exact S|exact K]]|]. split; [reflexivity|].
      cbn [result]. split; [|tauto]. intros Z0. split; [exact Z0|]. destruct Q as [I|[N|Q]].
      * exfalso. apply (HA r I). constructor.
      * contradiction.
      * apply Q; assumption.
    + destruct (den_has C h _ _ Dl) as (c & fl & ts1 & Hl & Et1 & _).
      destruct (den_has C h _ _ Dr) as (c2 & flr & ts2 & Hr & Et2 & _).
      assert (Ec : (class_of h l =? class_of h r)%nat = true).
      { unfold class_of. rewrite Hl, Hr. rewrite Et1, Et2 in Sh. apply shape_obj in Sh. apply Nat.eqb_eq. apply Sh. }
      rewrite Ec. cbn [negb]. rewrite andb_false_r.
      destruct (body_ok n A st l r t1 t2) as (st' & E & P); try assumption.
      { intros st1 l' r' ta tb Da Db Sab Sz. apply (IH ta ltac:(lia) (r :: A) st1 l' r' tb Da Db Sab). }
      rewrite E. assert (E2 : (sdepth st' =? 1)%nat = false) by (destruct P as (_ & P & _); rewrite P; exact E1).
      rewrite E2. eexists _, _. split; [reflexivity|]. destruct st'. exact P.
Qed.

Lemma compare_top n l r t1 t2 st :
  size t1 <= n -> sdepth st = 0 ->
  den' (VObj l) t1 -> den' (VObj r) t2 -> same_shape t1 t2 ->
  (forall p q, together C h (VObj l) (VObj r) p q -> Rel p q) ->
  exists st' b, cmp n h st l r = Ok (st', b) /\ sdepth st' = 0 /\ (b = true <-> t1 = t2 /\ do_compare l r = true).
Proof.
  intros Hn Sd Dl Dr Sh Ho. destruct n as [|n]; [destruct t1; cbn in Hn; lia|].
  cbn [compare]. rewrite Sd. cbn [Nat.eqb lookup cmap].
  destruct (den_has C h _ _ Dl) as (c & fl & ts1 & Hl & Et1 & _).
  destruct (den_has C h _ _ Dr) as (c2 & flr & ts2 & Hr & Et2 & _).
  assert (Ec : (class_of h l =? class_of h r)%nat = true).
  { unfold class_of. rewrite Hl, Hr. rewrite Et1, Et2 in Sh. apply shape_obj in Sh. apply Nat.eqb_eq. apply Sh. }
  rewrite Ec. cbn [negb]. rewrite andb_false_r.
  destruct (body_ok n [] (Mst 0 [] 1) l r t1 t2) as (st' & E & P); try assumption.
  { intros st1 l' r' ta tb Da Db Sab Sz. apply (nested_ok n ta ltac:(lia) [r] st1 l' r' tb Da Db Sab). }
  { intros a []. }
  { split; [cbn; lia|]. split; [cbn; lia|]. intros r' l' E. discriminate E. }
  { reflexivity. }
  cbn [result cmap sdepth] in E. cbn [result cmap sdepth]. rewrite E.
  destruct P as (_ & P2 & P3). cbn [result sdepth] in *. rewrite P2. cbn [Nat.eqb].
  eexists _, _. split; [reflexivity|]. split; [reflexivity|].
  rewrite andb_true_iff, Z.eqb_eq, P3. tauto.
Qed.
End Compare.
