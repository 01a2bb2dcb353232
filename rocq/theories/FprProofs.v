(** Proofs about the printout of the factory. *)
From Coq Require Import List Bool Arith String Ascii Lia.
From Verif Require Import SvModel SvSpec SvProofs SvProps FprModel FprSpec.
Import ListNotations.
Local Open Scope string_scope.

Lemma seqb_refl a : String.eqb a a = true. Proof. apply String.eqb_refl. Qed.
Lemma inb_in n l : inb n l = true <-> In n l.
Proof. unfold inb. rewrite existsb_exists. split; [intros (x & I & E); apply String.eqb_eq in E; now subst|intros I; exists n; split; auto; apply seqb_refl]. Qed.
Lemma inb_not n l : inb n l = false <-> ~ In n l.
Proof. rewrite <- inb_in. destruct (inb n l); split; congruence. Qed.

Lemma look_put {A} k (v : A) l k' : look k' (put k v l) = if String.eqb k' k then Some v else look k' l.
Proof.
  induction l as [|[a x] l IH]; cbn [put look].
  - reflexivity.
  - destruct (String.eqb_spec k a) as [->|N]; cbn [look].
    + now destruct (String.eqb k' a).
    + rewrite IH. destruct (String.eqb_spec k' a) as [->|]; [|reflexivity]. destruct (String.eqb_spec a k); congruence.
Qed.
Lemma look_none {A} k (l : list (string * A)) : look k l = None <-> ~ In k (map fst l).
Proof.
  induction l as [|[a x] l IH]; cbn; [tauto|]. destruct (String.eqb_spec k a) as [->|N]; [split; [discriminate|tauto]|]. rewrite IH. intuition congruence.
Qed.
Lemma put_keys {A} k (v : A) l : map fst (put k v l) = match look k l with Some _ => map fst l | None => (map fst l ++ [k])%list end.
Proof.
  induction l as [|[a x] l IH]; cbn [put look map app]; [reflexivity|]. destruct (String.eqb_spec k a) as [->|N]; cbn [map fst]; [reflexivity|]. rewrite IH. now destruct (look k l).
Qed.
Lemma put_new {A} k (v : A) l : look k l = None -> put k v l = (l ++ [(k, v)])%list.
Proof. induction l as [|[a x] l IH]; cbn [put look app]; [reflexivity|]. destruct (String.eqb k a); [discriminate|]. intros H. now rewrite IH. Qed.
Lemma NoDup_snoc {A} (l : list A) x : NoDup l -> ~ In x l -> NoDup (l ++ [x]).
Proof. intros H N. apply NoDup_rev in H. rewrite <- (rev_involutive l). change [x] with (rev [x]). rewrite <- rev_app_distr. apply NoDup_rev. cbn. constructor; auto. now rewrite <- in_rev. Qed.
Lemma put_nodup {A} k (v : A) l : NoDup (map fst l) -> NoDup (map fst (put k v l)).
Proof. intros H. rewrite put_keys. destruct (look k l) eqn:E; auto. apply look_none in E. now apply NoDup_snoc. Qed.

(** *** names and types *)
Definition self (e : string * string) : bool := String.eqb (fst e) (snd e).
Definition own (st : string -> option string) (n : string) : bool := match st n with Some t => String.eqb t n | None => false end.
Record NI (ns : list (string * string)) (ts : list string) (st : string -> option string) (rg : list string) : Prop := {
  n_look : forall n, look n ns = st n;
  n_types : ts = rg;
  n_nodup : NoDup rg;
  n_known : forall n, In n rg -> st n <> None;
  n_vals : forall n t, st n = Some t -> In t rg;
  n_self : map fst (filter self ns) = filter (own st) rg;
  n_keys : NoDup (map fst ns)
}.
Lemma filter_ext_own st st' l : (forall n, st n = st' n) -> filter (own st) l = filter (own st') l.
Proof. intros H. apply filter_ext. intros a. unfold own. now rewrite H. Qed.
Lemma NI_ext ns ts st st' rg : (forall n, st n = st' n) -> NI ns ts st rg -> NI ns ts st' rg.
Proof.
  intros E [H1 H2 H3 H4 H5 H6 H7]. constructor; auto.
  - intros n. now rewrite H1.
  - intros n I. rewrite <- E. auto.
  - intros n t X. rewrite <- E in X. eauto.
  - rewrite H6. now apply filter_ext_own.
Qed.
Lemma NI_register s st rg t : NI (names s) (types s) st rg ->
  NI (names (register s t)) (types (register s t)) (fun n => match st n with Some x => Some x | None => if String.eqb n t then Some n else None end) (add_new rg t).
Proof.
  intros [H1 H2 H3 H4 H5 H6 H7]. unfold register. cbn [names types]. rewrite H1. rewrite H2. unfold add_new. fold (inb t rg). destruct (st t) as [x|] eqn:E.
  - assert (Q : forall n, st n = match st n with Some x => Some x | None => if String.eqb n t then Some n else None end).
    { intros n. destruct (st n) eqn:En; auto. destruct (String.eqb_spec n t); [congruence|auto]. }
    apply (NI_ext _ _ st _ _ Q). destruct (inb t rg) eqn:I.
    + constructor; auto.
    + apply inb_not in I. constructor; auto.
      * now apply NoDup_snoc.
      * intros n X. apply in_app_iff in X as [X|[<-|[]]]; [auto|congruence].
      * intros n y X. apply in_app_iff. left. eauto.
      * rewrite filter_app, H6. cbn [filter]. unfold own at 3. rewrite E. destruct (String.eqb_spec x t) as [->|]; [exfalso; apply I; eauto|]. now rewrite app_nil_r.
  - destruct (inb t rg) eqn:I; [apply inb_in in I; apply H4 in I; congruence|]. apply inb_not in I. rewrite put_new by (now rewrite H1). constructor.
    + intros n. rewrite <- (put_new t t (names s)) by (now rewrite H1). rewrite look_put, H1. destruct (String.eqb_spec n t) as [->|]; [now rewrite E|]. now destruct (st n).
    + reflexivity.
    + now apply NoDup_snoc.
    + intros n X. apply in_app_iff in X as [X|[<-|[]]]; [|rewrite E, seqb_refl; discriminate]. specialize (H4 n X). now destruct (st n).
    + intros n y X. apply in_app_iff. destruct (st n) eqn:En; [left; injection X as <-; eauto|]. destruct (String.eqb_spec n t); [|discriminate]. injection X as <-. right. subst. now left.
    + rewrite !filter_app, map_app, H6. cbn [filter self fst snd map]. unfold self at 1. cbn [fst snd]. rewrite seqb_refl. unfold own at 3. rewrite E, !seqb_refl. cbn [map fst]. f_equal.
      apply filter_ext_in. intros a Ia. unfold own. destruct (st a) eqn:Ea; auto. destruct (H4 a Ia Ea).
    + rewrite map_app. cbn. apply NoDup_snoc; auto. apply look_none. now rewrite H1.
Qed.
Lemma NI_ensure s st rg t : NI (names s) (types s) st rg -> ensure s t = register s t.
Proof.
  intros [H1 H2 H3 H4 H5 H6 H7]. unfold ensure, register. rewrite H2, H1. fold (inb t rg). destruct (inb t rg) eqn:I; [|reflexivity]. apply inb_in in I.
  specialize (H4 t I). destruct (st t); [|congruence]. rewrite <- H2. now destruct s.
Qed.
Lemma filter_all {A} (f : A -> bool) l : (forall x, In x l -> f x = true) -> filter f l = l.
Proof. induction l as [|a l IH]; intros H; cbn; auto. rewrite H by (now left). f_equal. apply IH. intros x I. apply H. now right. Qed.
Lemma filter_both {A} (f g : A -> bool) l : filter f (filter g l) = filter (fun x => g x && f x) l.
Proof. induction l as [|a l IH]; cbn [filter]; auto. destruct (g a); cbn [filter andb]; rewrite IH; auto. Qed.
Lemma filter_self_put a t : forall ns, NoDup (map fst ns) -> look a ns <> None -> t <> a -> map fst (filter self (put a t ns)) = filter (fun n => negb (String.eqb n a)) (map fst (filter self ns)).
Proof.
  induction ns as [|[k x] ns IH]; intros ND L NE; [now destruct L|]. cbn [map fst] in ND. inversion ND as [|? ? K ND']; subst. cbn [put look] in *.
  destruct (String.eqb_spec a k) as [->|N].
  - assert (R : filter (fun n => negb (String.eqb n k)) (map fst (filter self ns)) = map fst (filter self ns)).
    { apply filter_all. intros y Iy. apply in_map_iff in Iy as ((y1 & y2) & <- & Iy). apply filter_In in Iy as (Iy & _). cbn [fst]. destruct (String.eqb_spec y1 k) as [->|]; auto.
      exfalso. apply K. apply in_map_iff. exists (k, y2). auto. }
    cbn [filter]. change (self (k, t)) with (String.eqb k t). change (self (k, x)) with (String.eqb k x). destruct (String.eqb_spec k t); [congruence|]. destruct (String.eqb k x); cbn [map fst filter]; rewrite ?seqb_refl; cbn [negb]; now rewrite R.
  - cbn [filter]. change (self (k, x)) with (String.eqb k x). destruct (String.eqb k x); cbn [map fst filter]; rewrite IH by auto; auto. destruct (String.eqb_spec k a); [congruence|]. reflexivity.
Qed.
Lemma put_same {A} k (v : A) : forall l, look k l = Some v -> put k v l = l.
Proof. induction l as [|[a x] l IH]; cbn [put look]; [discriminate|]. destruct (String.eqb_spec k a) as [->|]; [now intros [= ->]|]. intros H. now rewrite IH. Qed.
Lemma NI_put ns ts st rg a b t : NI ns ts st rg -> st b = Some t -> a <> b -> (forall x, st a = Some x -> x = a) ->
  NI (put a t ns) ts (fun n => if String.eqb n a then Some t else st n) rg.
Proof.
  intros [H1 H2 H3 H4 H5 H6 H7] Hb NE Ha. constructor; auto.
  - intros n. rewrite look_put, H1. reflexivity.
  - intros n I. destruct (String.eqb n a); [discriminate|auto].
  - intros n y. destruct (String.eqb n a); [intros [= <-]|]; eauto.
  - destruct (st a) as [x|] eqn:Ea.
    + specialize (Ha x eq_refl). subst x. destruct (string_dec t a) as [->|Nt].
      * rewrite put_same by (now rewrite H1). rewrite H6. apply filter_ext_own. intros n. destruct (String.eqb_spec n a); congruence.
      * rewrite filter_self_put; auto; [|rewrite H1; congruence]. rewrite H6. rewrite filter_both. apply filter_ext. intros n. unfold own. destruct (String.eqb_spec n a) as [->|N]; cbn [negb]; [|now rewrite andb_true_r].
        rewrite andb_false_r. destruct (String.eqb_spec t a); congruence.
    + rewrite put_new by (now rewrite H1). rewrite filter_app, map_app, H6. cbn [filter]. unfold self. cbn [fst snd].
      assert (NI : ~ In a rg) by (intros I; now apply (H4 a I)). destruct (String.eqb_spec a t) as [<-|]; [exfalso; apply NI; eauto|]. cbn. rewrite app_nil_r.
      apply filter_ext_in. intros m I. unfold own. destruct (String.eqb_spec m a) as [->|]; [contradiction|reflexivity].
  - now apply put_nodup.
Qed.

(** *** type overrides *)
Record TI (h : list op) (es : list ovr) : Prop := {
  t_names : map o_name es = overridden h;
  t_nodup : NoDup (overridden h);
  t_some : forall n, In n (overridden h) <-> produces h n <> None;
  t_val : forall e, In e es -> produces h (o_name e) = Some (o_type e);
  t_orig : forall e x, In e es -> o_orig e = Some x -> x = o_name e;
  t_alias : forall n t, stands h n = Some t -> t <> n -> produces h n <> None
}.
Lemma existsb_map {A B} (f : A -> B) p l : existsb p (map f l) = existsb (fun x => p (f x)) l.
Proof. induction l; cbn; congruence. Qed.
Lemma ext_in_existsb {A} (p q : A -> bool) l : (forall x, In x l -> p x = q x) -> existsb p l = existsb q l.
Proof. intros H. induction l as [|a l IH]; cbn; auto. rewrite H by (now left). rewrite IH; auto. intros x I. apply H. now right. Qed.
Lemma same_type_name h es o : TI h es -> forall e, In e es -> same_type o e = String.eqb (o_name e) o.
Proof.
  intros [_ _ _ _ T _] e I. unfold same_type. destruct (FprModel.o_orig e) as [x|] eqn:E; [|reflexivity]. rewrite (T e x I E). apply orb_diag.
Qed.
Lemma has_name h es n : TI h es -> existsb (fun e => String.eqb (o_name e) n) es = inb n (overridden h).
Proof.
  intros [T _ _ _ _ _]. rewrite <- T. unfold inb. rewrite existsb_map. apply ext_in_existsb. intros e _. apply String.eqb_sym.
Qed.
Lemma inb_produces h es n : TI h es -> inb n (overridden h) = match produces h n with Some _ => true | None => false end.
Proof.
  intros T. pose proof (t_some _ _ T n) as H. destruct (inb n (overridden h)) eqn:I.
  - apply inb_in in I. apply H in I. now destruct (produces h n).
  - apply inb_not in I. destruct (produces h n); auto. exfalso. apply I, H. discriminate.
Qed.
(** the list of overridden names and what they produce after an override of [n] giving [v] *)
Lemma TI_set h h' es n v (f : ovr -> ovr) : TI h es ->
  overridden h' = add_new (overridden h) n -> (forall m, produces h' m = if String.eqb m n then Some v else produces h m) ->
  (forall m t, stands h' m = Some t -> t <> m -> m <> n -> stands h m = Some t) ->
  (forall e, In e es -> o_name e = n -> o_name (f e) = n /\ o_type (f e) = v /\ (forall x, o_orig (f e) = Some x -> x = n)) ->
  (forall e, In e es -> o_name e <> n -> f e = e) ->
  forall og, (forall x, og = Some x -> x = n) ->
  TI h' (if inb n (overridden h) then map f es else es ++ [Ovr og n v]).
Proof.
  intros T EO EP ES Hf Hf' og Hog. destruct T as [T1 T2 T3 T4 T5 T6]. unfold add_new in EO.
  assert (HN : map o_name (map f es) = map o_name es).
  { rewrite map_map. apply map_ext_in. intros e I. destruct (string_dec (o_name e) n) as [E|E]; [rewrite E; now apply Hf|now rewrite Hf']. }
  constructor.
  - rewrite EO. destruct (inb n (overridden h)); [rewrite HN; auto|]. rewrite map_app, T1. reflexivity.
  - rewrite EO. destruct (inb n (overridden h)) eqn:I; auto. apply NoDup_snoc; auto. now apply inb_not.
  - intros m. rewrite EO, EP. destruct (inb n (overridden h)) eqn:I.
    + destruct (String.eqb_spec m n) as [->|N]; [|auto]. apply inb_in in I. split; [discriminate|auto].
    + rewrite in_app_iff, T3. destruct (String.eqb_spec m n) as [->|N]; cbn; [intuition discriminate|intuition congruence].
  - intros e I. rewrite EP. destruct (inb n (overridden h)) eqn:J.
    + apply in_map_iff in I as (e0 & <- & I). destruct (string_dec (o_name e0) n) as [E|E].
      * destruct (Hf e0 I E) as (A & B & _). rewrite A, B, seqb_refl. reflexivity.
      * rewrite (Hf' e0 I E). destruct (String.eqb_spec (o_name e0) n); [contradiction|auto].
    + apply in_app_iff in I as [I|[<-|[]]]; [|cbn; now rewrite seqb_refl]. destruct (String.eqb_spec (o_name e) n) as [E|]; [|auto].
      apply inb_not in J. exfalso. apply J. rewrite <- T1, <- E. now apply in_map.
  - intros e x I Ex. destruct (inb n (overridden h)).
    + apply in_map_iff in I as (e0 & <- & I). destruct (string_dec (o_name e0) n) as [E|E].
      * destruct (Hf e0 I E) as (A & _ & B). rewrite A. auto.
      * rewrite (Hf' e0 I E) in *. eauto.
    + apply in_app_iff in I as [I|[<-|[]]]; [eauto|]. cbn in *. auto.
  - intros m t S N. rewrite EP. destruct (String.eqb_spec m n); [discriminate|]. eapply T6; eauto.
Qed.
Lemma TI_keep h h' es : TI h es -> overridden h' = overridden h -> (forall m, produces h' m = produces h m) -> (forall m t, stands h' m = Some t -> t <> m -> stands h m = Some t) -> TI h' es.
Proof.
  intros [T1 T2 T3 T4 T5 T6] E1 E2 E3. constructor; rewrite ?E1; auto.
  - intros n. rewrite E2. auto.
  - intros e I. rewrite E2. auto.
  - intros n t S N. rewrite E2. eauto.
Qed.

(** *** instance overrides *)
Definition rows_of (h : list op) (o : string) : list (string * string * string) := map (fun r => (o, fst r, snd r)) (inst_of h o).
Record II (h : list op) (is : list (string * list (string * string * string))) : Prop := {
  i_look : forall o, look o is = match inst_of h o with [] => None | _ => Some (rows_of h o) end;
  i_keys : NoDup (map fst is);
  i_last : newest h = match rev (map fst is) with [] => None | o :: _ => Some o end
}.
Lemma II_keep h h' is : II h is -> (forall o, inst_of h' o = inst_of h o) -> newest h' = newest h -> II h' is.
Proof. intros [H1 H2 H3] E1 E2. constructor; auto; [|congruence]. intros o. unfold rows_of. rewrite E1. apply H1. Qed.

Record Inv (h : list op) (s : fac) : Prop := {
  v_n : NI (names s) (types s) (stands h) (registered h);
  v_t : TI h (tovr s);
  v_i : II h (iovr s)
}.
Lemma reg_tovr s t : tovr (register s t) = tovr s. Proof. reflexivity. Qed.
Lemma reg_iovr s t : iovr (register s t) = iovr s. Proof. reflexivity. Qed.
Lemma NI_two s h o t (x : op) : NI (names s) (types s) (stands h) (registered h) -> mentioned x = [o; t] -> (forall a b r, x <> TypeN a b r) ->
  let s' := ensure (ensure s o) t in NI (names s') (types s') (stands (x :: h)) (registered (x :: h)) /\ tovr s' = tovr s /\ iovr s' = iovr s.
Proof.
  intros H M NX. cbn zeta. rewrite (NI_ensure s _ _ o H). pose proof (NI_register s _ _ o H) as H1. rewrite (NI_ensure _ _ _ t H1). pose proof (NI_register _ _ _ t H1) as H2. cbn beta in H2.
  split; [|auto]. assert (registered (x :: h) = add_new (add_new (registered h) o) t) as -> by (cbn [registered]; rewrite M; reflexivity).
  eapply NI_ext; [|exact H2]. intros n. cbn beta. assert (stands (x :: h) n = match stands h n with Some y => Some y | None => if inb n (mentioned x) then Some n else None end) as -> by (destruct x; try reflexivity; exfalso; eapply NX; eauto).
  rewrite M. cbn [inb existsb]. destruct (stands h n); auto. destruct (String.eqb n o); auto. cbn. now destruct (String.eqb n t).
Qed.
Lemma stands_mono h x : (forall a b r, x <> TypeN a b r) -> forall m t, stands (x :: h) m = Some t -> t <> m -> stands h m = Some t.
Proof.
  intros NX m t E N. assert (stands (x :: h) m = match stands h m with Some y => Some y | None => if inb m (mentioned x) then Some m else None end) as Q by (destruct x; try reflexivity; exfalso; eapply NX; eauto).
  rewrite Q in E. destruct (stands h m); auto. destruct (inb m _); congruence.
Qed.
Lemma inv_step h s o : Inv h s -> Inv (o :: h) (step s o).
Proof.
  intros [HN HT HI]. destruct o as [t|o t r|a b r|o t p]; cbn [step].
  - constructor.
    + pose proof (NI_register s _ _ t HN) as H. cbn [registered mentioned fold_left]. eapply NI_ext; [|exact H]. intros n. cbn [stands mentioned inb existsb]. destruct (stands h n); auto. now destruct (String.eqb n t).
    + apply (TI_keep h); auto. apply stands_mono. discriminate.
    + apply (II_keep h); auto.
  - unfold set_type_by_type. destruct (NI_two s h o t (TypeT o t r) HN eq_refl ltac:(discriminate)) as (H1 & H2 & H3). set (s' := ensure (ensure s o) t) in *. clearbody s'. rewrite H2.
    assert (EX : existsb (same_type o) (tovr s) = inb o (overridden h)).
    { rewrite <- (has_name h (tovr s) o HT). apply ext_in_existsb. intros e I. apply (same_type_name h (tovr s)); auto. }
    rewrite EX. assert (II (TypeT o t r :: h) (iovr s')) as I' by (rewrite H3; apply (II_keep h); auto).
    pose proof (inb_produces h _ o HT) as PB.
    assert (TI (TypeT o t r :: h) (if inb o (overridden h) then if r then map (fun e => if same_type o e then Ovr (Some o) o t else e) (tovr s) else tovr s else tovr s ++ [Ovr (Some o) o t])) as T'.
    { assert (EO : overridden (TypeT o t r :: h) = add_new (overridden h) o).
      { cbn [overridden target filter]. cbn [produces]. rewrite seqb_refl. now destruct (produces h o). }
      assert (EP : forall m, produces (TypeT o t r :: h) m = if String.eqb m o then Some (match produces h o with Some x => if r then t else x | None => t end) else produces h m).
      { intros m. cbn [produces]. destruct (String.eqb_spec m o) as [->|]; auto. now destruct (produces h o). }
      assert (ES : forall m y, stands (TypeT o t r :: h) m = Some y -> y <> m -> m <> o -> stands h m = Some y) by (intros m y S N _; eapply stands_mono; eauto; discriminate).
      destruct (produces h o) as [x|] eqn:E; cbn iota in PB; rewrite PB; [destruct r|].
      - pose proof (TI_set h (TypeT o t true :: h) (tovr s) o t (fun e => if same_type o e then Ovr (Some o) o t else e) HT EO EP ES) as H. rewrite PB in H. apply H with (og := None); try discriminate.
        + intros e I En. rewrite (same_type_name h _ o HT e I), En, seqb_refl. cbn. repeat split; auto. congruence.
        + intros e I En. rewrite (same_type_name h _ o HT e I). destruct (String.eqb_spec (o_name e) o); congruence.
      - apply (TI_keep h); auto.
        + rewrite EO. unfold add_new. now rewrite PB.
        + intros m. rewrite EP. destruct (String.eqb_spec m o); congruence.
        + apply stands_mono. discriminate.
      - pose proof (TI_set h (TypeT o t r :: h) (tovr s) o t (fun e => e) HT EO EP ES) as H. rewrite PB in H. apply H; try congruence.
        intros e I En. exfalso. apply inb_not in PB. apply PB. rewrite <- En, <- (t_names _ _ HT). now apply in_map. }
    destruct (inb o (overridden h)); [destruct r|]; constructor; cbn [names types tovr iovr]; rewrite ?H2; auto.
  - unfold set_type_by_name. rewrite (n_look _ _ _ _ HN b). rewrite (n_look _ _ _ _ HN a). rewrite (has_name h _ a HT). pose proof (inb_produces h _ a HT) as PB.
    assert (I' : II (TypeN a b r :: h) (iovr s)) by (apply (II_keep h); auto).
    assert (RG : registered (TypeN a b r :: h) = registered h) by reflexivity.
    assert (KEEP : (forall n, stands (TypeN a b r :: h) n = stands h n) -> (forall n, produces (TypeN a b r :: h) n = produces h n) -> Inv (TypeN a b r :: h) s).
    { intros E1 E2. constructor; auto.
      - rewrite RG. eapply NI_ext; [|exact HN]. intros n. now rewrite E1.
      - apply (TI_keep h); auto; [|intros m t S _; now rewrite <- E1]. cbn [overridden target filter]. rewrite E2. destruct (produces h a) eqn:E; auto. cbn [fold_left]. unfold add_new. now rewrite PB. }
    destruct (stands h b) as [t|] eqn:Eb.
    2: { apply KEEP; intros n; cbn [stands produces]; rewrite Eb; [now destruct (_ && _ && _)|now destruct (_ && _)]. }
    destruct (String.eqb_spec a b) as [Eab|Nab].
    { apply KEEP; intros n; cbn [stands produces]; rewrite Eab, seqb_refl; cbn [negb]; rewrite andb_false_r; reflexivity. }
    assert (Qab : String.eqb a b = false) by (now apply String.eqb_neq).
    assert (EO : overridden (TypeN a b r :: h) = add_new (overridden h) a).
    { cbn [overridden target filter]. cbn [produces]. rewrite seqb_refl, Qab, Eb. cbn. now destruct (produces h a). }
    assert (EP : forall m, produces (TypeN a b r :: h) m = if String.eqb m a then Some (match produces h a with Some x => if r then b else x | None => t end) else produces h m).
    { intros m. cbn [produces]. rewrite Qab, Eb. destruct (String.eqb_spec m a) as [->|]; cbn; auto. now destruct (produces h a). }
    destruct (produces h a) as [x|] eqn:E; cbn iota in PB; rewrite PB.
    + assert (ES : forall m, stands (TypeN a b r :: h) m = stands h m) by (intros m; cbn [stands]; rewrite E, andb_false_r; reflexivity).
      destruct r.
      * constructor; cbn [names types tovr iovr]; auto.
        -- rewrite RG. eapply NI_ext; [|exact HN]. intros n. now rewrite ES.
        -- pose proof (TI_set h (TypeN a b true :: h) (tovr s) a b (fun e => if String.eqb (o_name e) a then Ovr (o_orig e) (o_name e) b else e) HT EO EP) as H. rewrite PB in H. apply H with (og := None); try discriminate.
           ++ intros m y S _ _. now rewrite <- ES.
           ++ intros e I En. rewrite En, seqb_refl. cbn. repeat split; auto. intros y Ey. rewrite <- En. eapply (t_orig _ _ HT); eauto.
           ++ intros e I En. destruct (String.eqb_spec (o_name e) a); congruence.
      * apply KEEP; [exact ES|]. intros m. rewrite EP. destruct (String.eqb_spec m a); congruence.
    + assert (Sa : forall y, stands h a = Some y -> y = a).
      { intros y Ey. destruct (string_dec y a); auto. exfalso. eapply (t_alias _ _ HT); eauto. }
      assert (ES : forall m, stands (TypeN a b r :: h) m = if String.eqb m a then Some t else stands h m).
      { intros m. cbn [stands]. rewrite E, Qab, Eb. now destruct (String.eqb m a). }
      constructor; cbn [names types tovr iovr]; auto.
      * rewrite RG. eapply NI_ext; [|eapply NI_put; eauto]. intros n. now rewrite ES.
      * pose proof (TI_set h (TypeN a b r :: h) (tovr s) a t (fun e => e) HT EO EP) as H. rewrite PB in H.
        assert (Q : match stands h a with Some o => o | None => a end = a) by (destruct (stands h a) as [y|] eqn:Ey; auto). rewrite Q. apply H; auto.
        -- intros m y S N1 N2. rewrite ES in S. destruct (String.eqb_spec m a); congruence.
        -- intros e I En. exfalso. apply inb_not in PB. apply PB. rewrite <- En, <- (t_names _ _ HT). now apply in_map.
  - unfold set_inst_by_type. destruct (NI_two s h o t (InstT o t p) HN eq_refl ltac:(discriminate)) as (H1 & H2 & H3). set (s' := ensure (ensure s o) t) in *. clearbody s'. rewrite H3.
    assert (T' : TI (InstT o t p :: h) (tovr s')) by (rewrite H2; apply (TI_keep h); auto; apply stands_mono; discriminate).
    rewrite (i_look _ _ HI o). set (q := match match inst_of h o with [] => None | _ => Some (rows_of h o) end with Some q => q | None => [] end).
    assert (Q : q = rows_of h o) by (unfold q, rows_of; now destruct (inst_of h o)). rewrite Q. clear q Q.
    assert (X : existsb (trip_eqb (o, p, t)) (rows_of h o) = existsb (fun r => String.eqb (fst r) p && String.eqb (snd r) t) (inst_of h o)).
    { unfold rows_of. rewrite existsb_map. apply ext_in_existsb. intros [y z] _. cbn. rewrite seqb_refl. cbn. rewrite (String.eqb_sym p y), (String.eqb_sym t z). reflexivity. }
    rewrite X. destruct (existsb _ (inst_of h o)) eqn:EX.
    + constructor; auto. rewrite H3. apply (II_keep h); auto.
      * intros o'. cbn [inst_of]. destruct (String.eqb_spec o' o) as [->|]; cbn; auto. now rewrite EX.
      * cbn [newest]. now destruct (inst_of h o).
    + constructor; cbn [names types tovr iovr]; auto. destruct HI as [I1 I2 I3]. constructor.
      * intros o'. rewrite look_put. unfold rows_of. cbn [inst_of]. destruct (String.eqb_spec o' o) as [->|N]; cbn [andb].
        -- rewrite EX. cbn [negb]. rewrite map_app. cbn. destruct (inst_of h o); reflexivity.
        -- rewrite I1. reflexivity.
      * now apply put_nodup.
      * rewrite put_keys, I1. cbn [newest]. destruct (inst_of h o); [now rewrite rev_unit|exact I3].
Qed.
Lemma inv h : Inv h (after h).
Proof.
  induction h as [|o h IH]; [|now apply inv_step]. constructor; constructor; cbn; auto; try (constructor; fail); try (intros; discriminate); try tauto.
Qed.

(** *** the text *)
Lemma rep_len c n : length (rep c n) = n. Proof. induction n; cbn; auto. Qed.
Lemma sub_rep c k : forall n, substring 0 k (rep c n) = rep c (Nat.min n k).
Proof. induction k as [|k IH]; intros [|n]; cbn; auto. now rewrite IH. Qed.
Lemma space_is k : space k = rep " " (Nat.min 99 (k - 1)).
Proof. unfold space. change (substring 1 (k - 1) (rep " " 100)) with (substring 0 (k - 1) (rep " " 99)). apply sub_rep. Qed.
Lemma dash_is k : dash k = line k.
Proof. unfold dash, line. change (substring 1 (k - 1) (rep "-" 100)) with (substring 0 (k - 1) (rep "-" 99)). apply sub_rep. Qed.
Lemma fill_is w a : space (w - length a) = fill w a.
Proof. rewrite space_is. unfold fill. reflexivity. Qed.
Lemma sorted_is s : sorted s = match rev (iovr s) with [] => [] | e :: _ => [("uvm_queue", snd e)] end.
Proof.
  unfold sorted. induction (iovr s) as [|e l IH] using rev_ind; [reflexivity|]. rewrite fold_left_app, rev_unit. cbn [fold_left]. rewrite IH. destruct (rev l); reflexivity.
Qed.
Lemma look_last {A} o (v : A) l : NoDup (map fst l) -> rev l = (o, v) :: tl (rev l) -> look o l = Some v.
Proof.
  intros H E. assert (L : l = (rev (tl (rev l)) ++ [(o, v)])%list). { rewrite <- (rev_involutive l) at 1. rewrite E. reflexivity. }
  revert H. rewrite L. generalize (rev (tl (rev l))). clear. intros l. induction l as [|[a x] l IH]; cbn; [now rewrite seqb_refl|]. intros H. inversion H as [|? ? K H']; subst.
  destruct (String.eqb_spec o a) as [->|]; [|auto]. exfalso. apply K. rewrite map_app. apply in_app_iff. right. now left.
Qed.
Lemma sorted_rows h : sorted (after h) = match inst_rows h with [] => [] | r => [("uvm_queue", r)] end.
Proof.
  destruct (inv h) as [_ _ [I1 I2 I3]]. rewrite sorted_is. unfold inst_rows. rewrite I3. rewrite <- map_rev. destruct (rev (iovr (after h))) as [|[o q] l] eqn:E; [reflexivity|]. cbn [map fst snd].
  assert (L : look o (iovr (after h)) = Some q) by (apply look_last; auto; rewrite E; reflexivity). rewrite I1 in L. fold (rows_of h o). destruct (inst_of h o) eqn:EI; [discriminate|]. injection L as <-. unfold rows_of. rewrite EI. reflexivity.
Qed.
Lemma tovr_rows h : map (fun e => (o_name e, o_type e)) (tovr (after h)) = type_rows h.
Proof.
  destruct (inv h) as [_ [T1 T2 T3 T4 T5 T6] _]. unfold type_rows. rewrite <- T1. clear T1 T2 T3 T5 T6. induction (tovr (after h)) as [|e l IH]; [reflexivity|]. cbn [map flat_map]. rewrite T4 by (now left). cbn. f_equal. apply IH. intros x I. apply T4. now right.
Qed.
Lemma lmax m n : (if Nat.ltb m n then n else m) = Nat.max m n.
Proof. destruct (Nat.ltb_spec m n); lia. Qed.
Lemma least_is n m : least n m = Nat.max n m.
Proof. unfold least. rewrite lmax. lia. Qed.
Lemma wide_max n m l : Nat.max n (wide m l) = wide (Nat.max n m) l.
Proof. induction l as [|a l IH]; cbn [wide fold_right]; auto. fold (wide m l) (wide (Nat.max n m) l). lia. Qed.
Lemma wide_app n l l' : wide n (l ++ l') = wide (wide n l') l.
Proof. unfold wide. apply fold_right_app. Qed.
Lemma widths_is rows : forall m1 m2 m3, widths rows (m1, m2, m3) = (wide m1 (map f1 rows), wide m2 (map f2 rows), wide m3 (map f3 rows)).
Proof.
  induction rows as [|[[a b] c] rows IH]; intros m1 m2 m3; [reflexivity|]. cbn [widths]. rewrite IH, !lmax. cbn [map wide fold_right f1 f2 f3 fst snd]. fold (wide m1 (map f1 rows)) (wide m2 (map f2 rows)) (wide m3 (map f3 rows)).
  rewrite !(Nat.max_comm _ (length _)), <- !wide_max. reflexivity.
Qed.
Lemma type_widths_is es : forall m1 m2, type_widths es m1 m2 = (wide m1 (map o_name es), wide m2 (map o_type es)).
Proof.
  induction es as [|e es IH]; intros m1 m2; [reflexivity|]. cbn [type_widths]. rewrite IH, !lmax. cbn [map wide fold_right]. fold (wide m1 (map o_name es)) (wide m2 (map o_type es)).
  rewrite !(Nat.max_comm _ (length _)), <- !wide_max. reflexivity.
Qed.
Lemma wide_swap n l l' : wide n (l ++ l') = wide n (l' ++ l).
Proof. induction l as [|a l IH]; [now rewrite app_nil_r|]. cbn [app wide fold_right]. fold (wide n (l ++ l')). rewrite IH. rewrite !wide_app. cbn [wide fold_right]. fold (wide n l). now rewrite wide_max. Qed.
Lemma type_part_ne irows rows : rows <> [] -> type_part irows rows =
      let w1 := wide 14 (map f1 irows ++ map fst rows)%list in let w2 := wide 13 (map f2 irows ++ map snd rows)%list in
      T (nl ++ "Type Overrides:" ++ nl ++ nl) ::
      T ("  Requested Type" ++ fill w1 "Requested Type" ++ "  Override Type" ++ fill w2 "Override Type" ++ nl) ::
      T ("  " ++ line w1 ++ "  " ++ line w2 ++ nl) ::
      map (fun r => T ("  " ++ fst r ++ fill w1 (fst r) ++ "  " ++ snd r ++ nl)) rows.
Proof. now destruct rows. Qed.
Lemma inst_part_ne rows : rows <> [] -> inst_part rows =
      let w1 := wide 14 (map f1 rows) in let w2 := wide 13 (map f2 rows) in let w3 := wide 13 (map f3 rows) in
      T ("Instance Overrides:" ++ nl ++ nl) ::
      T ("  Requested Type" ++ fill w1 "Requested Type" ++ "  Override Path" ++ fill w2 "Override Path" ++ "  Override Type" ++ fill w3 "Override Type" ++ nl) ::
      T ("  " ++ line w1 ++ "  " ++ line w2 ++ "  " ++ line w3 ++ nl) ::
      flat_map (fun r => [T ("  " ++ f1 r ++ fill w1 (f1 r) ++ "  " ++ f2 r ++ fill w2 (f2 r)); T ("  " ++ f3 r ++ nl)]) rows.
Proof. now destruct rows. Qed.
Lemma overrides_is h : overrides_text (after h) = overrides_part (inst_rows h) (type_rows h).
Proof.
  unfold overrides_text. rewrite sorted_rows, <- tovr_rows. set (es := tovr (after h)). set (ir := inst_rows h). clearbody es ir.
  assert (TP : forall m1 m2, m1 = wide 14 (map f1 ir) -> m2 = wide 13 (map f2 ir) -> forall e0 es0, es = e0 :: es0 ->
    (let '(m1, m2) := type_widths es m1 m2 in
          T (nl ++ "Type Overrides:" ++ nl ++ nl) ::
          T ("  Requested Type" ++ space (m1 - 14) ++ "  Override Type" ++ space (m2 - 13) ++ nl) ::
          T ("  " ++ dash m1 ++ "  " ++ dash m2 ++ nl) ::
          map (fun e => T ("  " ++ o_name e ++ space (m1 - length (o_name e)) ++ "  " ++ o_type e ++ nl)) es) = type_part ir (map (fun e => (o_name e, o_type e)) es)).
  { intros m1 m2 -> -> e0 es0 E. rewrite type_widths_is, type_part_ne by (rewrite E; discriminate). cbn zeta.
    rewrite !map_map. cbn [fst snd]. rewrite (wide_swap 14), (wide_swap 13), !wide_app. change (map (fun x => o_name x) es) with (map o_name es). change (map (fun x => o_type x) es) with (map o_type es).
    rewrite !dash_is. generalize (wide (wide 14 (map f1 ir)) (map o_name es)) (wide (wide 13 (map f2 ir)) (map o_type es)). intros w1 w2.
    change (w1 - 14) with (w1 - length "Requested Type"). change (w2 - 13) with (w2 - length "Override Type"). rewrite !fill_is.
    do 3 f_equal. apply map_ext. intros e. now rewrite fill_is. }
  assert (IP : forall r0 ir0, ir = r0 :: ir0 ->
     T ("Instance Overrides:" ++ nl ++ nl) ::
             T ("  Requested Type" ++ space (wide 14 (map f1 ir) - 14) ++ "  Override Path" ++ space (wide 13 (map f2 ir) - 13) ++ "  Override Type" ++ space (wide 13 (map f3 ir) - 13) ++ nl) ::
             T ("  " ++ dash (wide 14 (map f1 ir)) ++ "  " ++ dash (wide 13 (map f2 ir)) ++ "  " ++ dash (wide 13 (map f3 ir)) ++ nl) ::
             flat_map (inst_row (wide 14 (map f1 ir)) (wide 13 (map f2 ir))) ir = inst_part ir).
  { intros r0 ir0 E. rewrite inst_part_ne by (rewrite E; discriminate). cbn zeta. rewrite !dash_is. generalize (wide 14 (map f1 ir)) (wide 13 (map f2 ir)) (wide 13 (map f3 ir)). intros w1 w2 w3.
    change (w1 - 14) with (w1 - length "Requested Type"). change (w2 - 13) with (w2 - length "Override Path"). change (w3 - 13) with (w3 - length "Override Type"). rewrite !fill_is.
    do 3 f_equal. rewrite !flat_map_concat_map. f_equal. apply map_ext. intros [[a b] c]. cbn [inst_row f1 f2 f3 fst snd]. now rewrite !fill_is. }
  destruct ir as [|r0 ir0]; cbn [map List.concat snd].
  - destruct es as [|e0 es0]; [reflexivity|]. cbn [overrides_part inst_part map]. f_equal. exact (TP _ _ eq_refl eq_refl e0 es0 eq_refl).
  - rewrite app_nil_r, widths_is, !least_is, !wide_max. cbn [Nat.max]. rewrite (IP r0 ir0 eq_refl).
    destruct es as [|e0 es0]; [reflexivity|]. cbn [overrides_part map]. f_equal.
    refine (TP _ _ _ _ e0 es0 eq_refl); reflexivity.
Qed.

Lemma names_text_is all es : forall b, names_text all b es =
  (match filter (shows all) es with [] => [] | _ => if b then [] else [T ("  Type Name" ++ nl); T ("  ---------" ++ nl)] end ++ map (fun e => T ("  " ++ snd e ++ nl)%string) (filter (shows all) es))%list.
Proof.
  induction es as [|e es IH]; intros b; [reflexivity|]. cbn [names_text filter]. destruct (shows all e); [|apply IH]. rewrite IH. cbn [map]. destruct b; cbn; do 2 f_equal; destruct (filter (shows all) es); reflexivity.
Qed.

(** *** the types shown *)
Lemma contains_ok x s : containsb x s = true <-> contains x s.
Proof.
  unfold contains. induction s as [|c s IH].
  - cbn. rewrite orb_false_r. split.
    + destruct x; [|discriminate]. exists "", "". reflexivity.
    + intros (a & b & E). destruct a; [|discriminate]. destruct x; [reflexivity|discriminate].
  - cbn [containsb]. rewrite orb_true_iff, IH. split.
    + intros [H|(a & b & ->)]; [|exists (String c a), b; reflexivity]. exists ""%string. clear IH. revert s c H. cbn [append]. 
      assert (G : forall x s, prefix x s = true -> exists b, s = x ++ b). { clear. induction x as [|d x IH]; intros s H; [now exists s|]. destruct s as [|e s]; [discriminate|]. cbn in H. destruct (ascii_dec d e); [|discriminate]. subst. destruct (IH s H) as (b & ->). now exists b. }
      intros s c H. now apply G.
    + intros (a & b & E). destruct a as [|d a]; [left|right; injection E as -> ->; now exists a, b]. cbn [append] in E. rewrite E. clear. induction x as [|d x IH]; cbn; [now destruct b|]. destruct (ascii_dec d d); congruence.
Qed.
Lemma las_app a b : list_ascii_of_string (a ++ b) = (list_ascii_of_string a ++ list_ascii_of_string b)%list.
Proof. induction a; cbn; congruence. Qed.
Lemma las_inj a : forall b, list_ascii_of_string a = list_ascii_of_string b -> a = b.
Proof. induction a as [|c a IH]; intros [|d b] H; try discriminate; auto. injection H as -> H. f_equal. auto. Qed.
Lemma las_of l : list_ascii_of_string (string_of_list_ascii l) = l.
Proof. apply list_ascii_of_string_of_list_ascii. Qed.
Lemma glob_star s : glob ["*"%char] s.
Proof. induction s; [apply G_star_skip, G_nil|now apply G_star_eat]. Qed.
Lemma is_match_uvm n : is_match "uvm_*" n = containsb "uvm_" n.
Proof.
  unfold is_match. destruct (C20_match (list_ascii_of_string "uvm_*") (list_ascii_of_string n)) as (b & E & H).
  - cbn. unfold plain. repeat (apply Forall_cons; [cbn; intuition discriminate|]). apply Forall_nil.
  - intros (m & E & _). discriminate.
  - rewrite E. apply eq_true_iff_eq. rewrite H, contains_ok. split.
    + intros (m & (l & r & E1) & G). cbn in G. repeat match goal with G : glob (_ :: _ :: _) _ |- _ => inversion G; subst; clear G; try congruence end.
      match goal with G : glob ["*"%char] ?s |- _ => exists (string_of_list_ascii l), (string_of_list_ascii (s ++ r)) end.
      apply las_inj. rewrite E1, !las_app, !las_of. cbn. reflexivity.
    + intros (a & b' & ->). exists (list_ascii_of_string ("uvm_" ++ b')). split; [exists (list_ascii_of_string a), []; now rewrite las_app, app_nil_r|]. cbn. repeat (apply G_char; [discriminate|discriminate|]). apply glob_star.
Qed.
Lemma filter_split {A} (f g : A -> bool) l : filter (fun x => f x && g x) l = filter f (filter g l).
Proof. rewrite filter_both. apply filter_ext. intros x. apply andb_comm. Qed.
Lemma shown_names h all : map snd (filter (shows all) (names (after h))) = listed h all.
Proof.
  destruct (inv h) as [[H1 H2 H3 H4 H5 H6 H7] _ _]. unfold listed.
  transitivity (filter (fun n => Nat.leb 2 all || negb (containsb "uvm_" n)) (map fst (filter self (names (after h))))).
  - clear. induction (names (after h)) as [|[c d] l IH]; [reflexivity|]. cbn [filter]. unfold shows at 1. change (self (c, d)) with (String.eqb c d). cbn [fst snd]. destruct (String.eqb_spec c d) as [->|]; [|rewrite andb_false_r; exact IH].
    cbn [map fst filter]. rewrite andb_true_r, is_match_uvm. replace (negb (Nat.ltb all 2 && containsb "uvm_" d)) with (Nat.leb 2 all || negb (containsb "uvm_" d)) by (rewrite negb_andb, Nat.ltb_antisym, negb_involutive; reflexivity).
    destruct (_ || _); cbn [map snd]; now rewrite IH.
  - rewrite H6, filter_both. apply filter_ext. intros n. unfold own. reflexivity.
Qed.
Lemma no_names h : names (after h) = [] <-> registered h = [].
Proof.
  destruct (inv h) as [[H1 H2 H3 H4 H5 H6 H7] _ _]. split; intros E.
  - destruct (registered h) as [|n l] eqn:R; auto. exfalso. apply (H4 n); [now left|]. rewrite <- H1, E. reflexivity.
  - destruct (names (after h)) as [|[k v] l] eqn:N; auto. exfalso. specialize (H1 k). cbn in H1. rewrite seqb_refl in H1. specialize (H5 k v (eq_sym H1)). now rewrite E in H5.
Qed.
Lemma print_is h all : print (after h) all = printout (inst_rows h) (type_rows h) (if Nat.leb 1 all then types_part (List.length (registered h)) (listed h all) else []).
Proof.
  unfold print, printout. rewrite overrides_is. do 3 f_equal. destruct (Nat.leb 1 all); [|reflexivity]. cbn [andb].
  pose proof (no_names h) as N. destruct (inv h) as [[_ H2 _ _ _ _ _] _ _]. rewrite H2. destruct (names (after h)) as [|e es] eqn:E.
  - rewrite (proj1 N eq_refl). reflexivity.
  - destruct (registered h) as [|n l] eqn:R; [discriminate (proj2 N eq_refl)|]. rewrite <- E. cbn [negb List.length types_part app]. f_equal. rewrite names_text_is. rewrite <- (shown_names h all), map_map. now destruct (filter (shows all) (names (after h))).
Qed.
