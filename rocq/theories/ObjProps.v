(** C61: comparison of fields. C97-C99: copy and compare. C100: field macros and
    inheritance. *)
From Coq Require Import ZArith List Bool Arith Lia.
From Verif Require Import Prelude ObjModel ObjSpec ObjProofs.
Import ListNotations.
Local Open Scope nat_scope.

(** ** C61 *)
Definition same_low_bits (size a b : Z) : Prop := forall i, (0 <= i < size)%Z -> Z.testbit a i = Z.testbit b i.

(** Values that fit the size are compared as claimed. *)
Theorem C61_fitting a b size :
  (0 <= size <= 64)%Z -> (0 <= a < 2 ^ size)%Z -> (0 <= b < 2 ^ size)%Z ->
  compare_field a b size = Some true <-> same_low_bits size a b.
Proof.
  intros S A B. unfold compare_field. rewrite (proj2 (Z.leb_le size 64)) by lia.
  rewrite compare_field_int_eq by lia. split.
  - intros E. injection E as E. apply Z.eqb_eq in E. subst b. intros i _. reflexivity.
  - intros H. f_equal. apply Z.eqb_eq. apply Z.bits_inj'. intros i Hi.
    destruct (Z_lt_dec i size) as [L|G]; [now apply H|].
    assert (X : forall x, (0 <= x < 2 ^ size)%Z -> Z.testbit x i = false).
    { intros x Hx. destruct (Z.eq_dec x 0) as [->|]; [apply Z.testbit_0_l|].
      apply Z.bits_above_log2; [lia|]. apply Z.lt_le_trans with size; [|lia]. apply Z.log2_lt_pow2; lia. }
    now rewrite !X.
Qed.
Example C61_example : compare_field 5 5 3 = Some true /\ compare_field 5 7 3 = Some false.
Proof. split; vm_compute; reflexivity. Qed.

(** The size has no influence up to 64: all bits are compared. *)
Theorem C61_all_bits a b size : (0 <= size <= 64)%Z -> compare_field a b size = Some (a =? b)%Z.
Proof.
  intros S. unfold compare_field. rewrite (proj2 (Z.leb_le size 64)) by lia. now rewrite compare_field_int_eq by lia.
Qed.
Example C61_all_bits_example : same_low_bits 4 1 17 /\ compare_field 1 17 4 = Some false.
Proof.
  split; [|vm_compute; reflexivity]. intros i Hi.
  assert (i = 0 \/ i = 1 \/ i = 2 \/ i = 3)%Z as [->|[->|[->| ->]]] by lia; reflexivity.
Qed.
(** Over 64 bits nothing is returned (None, which is false), even for equal values. *)
Theorem C61_wide a b size : (64 < size)%Z -> compare_field a b size = None.
Proof. intros S. unfold compare_field. now rewrite (proj2 (Z.leb_gt size 64)) by lia. Qed.
Print Assumptions C61_fitting.
Print Assumptions C61_all_bits.
Print Assumptions C61_wide.

(** ** C97: copy *)
Section C97.
Variable passes : nat -> list (list (nat * Z)).
Variable created : nat -> nat.
Variable init : nat -> attrs.

(** b.copy(a) for an acyclic a not containing b: b becomes the same tree of values as
    a; every other object that existed is untouched; below b there are new objects
    only, and nothing is left over for later copies. *)
Theorem C97_copy st a b t :
  (forall c, created c = c) -> well_formed (hp st) -> gmap st = [] ->
  den (copied_fields passes) (hp st) (VObj a) t ->
  (exists x, obj (hp st) b = Some x) -> class_of (hp st) b = class_of (hp st) a ->
  ~ reach (copied_fields passes) (hp st) (VObj a) b ->
  exists st', (forall fuel, size t <= fuel -> copy passes created init fuel st b a = Ok st') /\
    den (copied_fields passes) (hp st') (VObj b) t /\
    (forall o, o < next (hp st) -> o <> b -> obj (hp st') o = obj (hp st) o) /\
    (forall o, reach (copied_fields passes) (hp st') (VObj b) o -> o = b \/ next (hp st) <= o) /\
    gmap st' = [].
Proof.
  intros HC W G D X E N.
  assert (P : Pre passes st b a t).
  { split; [exact W|]. split; [exact D|]. split; [exact X|]. split; [exact E|]. split; [exact N|]. rewrite G. intros ? []. }
  destruct (copy_ok passes created init HC (size t) t (le_n _) st b a P) as (st' & E' & G' & W' & N' & A' & D' & R' & _).
  exists st'. split; [|auto].
  assert (M : forall f1 f2 s x y s', f1 <= f2 -> copy passes created init f1 s x y = Ok s' -> copy passes created init f2 s x y = Ok s').
  { clear. induction f1 as [|f1 IH]; intros f2 s x y s' L E; [discriminate E|]. destruct f2 as [|f2]; [lia|].
    cbn [copy] in *. destruct (existsb (Nat.eqb y) (gmap s)); [exact E|].
    destruct (foldr_res (copy_field created init (copy passes created init f1) x y) _ _) as [s1| |] eqn:E1; try discriminate E.
    assert (F : forall fs s s1, foldr_res (copy_field created init (copy passes created init f1) x y) fs s = Ok s1 ->
              foldr_res (copy_field created init (copy passes created init f2) x y) fs s = Ok s1).
    { induction fs as [|f fs IHf]; intros u u1 Eu; cbn [foldr_res] in *; [exact Eu|].
      destruct (copy_field created init (copy passes created init f1) x y u f) as [u2| |] eqn:E2; try discriminate Eu.
      assert (E3 : copy_field created init (copy passes created init f2) x y u f = Ok u2).
      { revert E2. unfold copy_field. destruct (copyable (snd f)); [|trivial].
        destruct (getattr (hp u) y (fst f)) as [[| | | |o]|]; trivial.
        destruct (create created init (hp u) o) as [h1 tmp].
        destruct (copy passes created init f1 _ tmp o) as [u3| |] eqn:E4; try discriminate.
        rewrite (IH f2 _ _ _ _ ltac:(lia) E4). trivial. }
      rewrite E3. now apply IHf. }
    rewrite (F _ _ _ E1). exact E. }
  intros fuel L. exact (M _ _ _ _ _ _ L E').
Qed.
End C97.

(** A class 0 with an object field 0 and an int field 1; class 1 without fields;
    class 2 with object fields 0 and 1. *)
Definition ex_passes (c : nat) : list (list (nat * Z)) :=
  match c with
  | 0 => [[(0, UVM_DEFAULT); (1, UVM_DEFAULT)]]
  | 2 => [[(0, UVM_DEFAULT); (1, UVM_DEFAULT)]]
  | _ => []
  end.
Definition ex_created (c : nat) := c.
Definition ex_init (c : nat) : attrs := fun f => match f with 0 => Some VNone | 1 => Some (VInt 0) | _ => None end.
Definition ex_attrs (a b : val) : attrs := fun f => match f with 0 => Some a | 1 => Some b | _ => None end.
(** Objects 0 (with 1 below it) and 2, all of class 0. *)
Definition ex_heap : heap :=
  Heap 3 (fun o => match o with
    | 0 => Some (0, ex_attrs (VObj 1) (VInt 7))
    | 1 => Some (0, ex_attrs VNone (VInt 8))
    | 2 => Some (0, ex_init 0)
    | _ => None end).
Definition show (sel : list nat) (h : heap) (o : nat) := map (getattr h o) sel.
(** [x] returns, and the property holds of what it returns. *)
Definition gives {A} (x : res A) (P : A -> Prop) : Prop := match x with Ok a => P a | _ => False end.
Example C97_example :
  gives (copy ex_passes ex_created ex_init 9 (Cst ex_heap [] 0) 2 0) (fun st' =>
    show [0; 1] (hp st') 2 = [Some (VObj 3); Some (VInt 7)] /\
    show [0; 1] (hp st') 3 = [Some VNone; Some (VInt 8)]).
Proof. vm_compute. auto. Qed.
Example C97_hypotheses :
  den (copied_fields ex_passes) ex_heap (VObj 0) (TObj 0 [TObj 0 [TNone; TInt 8]; TInt 7]) /\
  ~ reach (copied_fields ex_passes) ex_heap (VObj 0) 2.
Proof.
  split.
  - apply den_obj. eexists _, _. split; [reflexivity|]. split; [reflexivity|].
    constructor; [|constructor; [|constructor]]; eexists; (split; [reflexivity|]); [|reflexivity].
    apply den_obj. eexists _, _. split; [reflexivity|]. split; [reflexivity|].
    constructor; [|constructor; [|constructor]]; eexists; (split; reflexivity).
  - assert (H1 : forall v p, reach (copied_fields ex_passes) ex_heap v p -> v = VObj 1 \/ v = VNone \/ (exists z, v = VInt z) -> p = 1).
    { induction 1 as [o|o c fl f v p Ho If Ef R IH]; intros [E|[E|(z & E)]]; try discriminate E; injection E as ->; [reflexivity|].
      injection Ho as <- <-. apply IH. destruct If as [<-|[<-|[]]]; cbn in Ef; injection Ef as <-; [right; now left|right; right; eauto]. }
    intros R. inversion R as [|o c fl f v p Ho If Ef R']; subst. injection Ho as <- <-.
    assert (2 = 1); [|discriminate]. apply (H1 v 2 R').
    destruct If as [<-|[<-|[]]]; cbn in Ef; injection Ef as <-; [now left|right; right; eauto].
Qed.

(** An object that refers to itself, with any number in its int field: the copy
    refers to a blank object, and the next clone of the object copies nothing at all. *)
Definition self_loop (z : Z) : heap := Heap 1 (fun o => match o with 0 => Some (0, ex_attrs (VObj 0) (VInt z)) | _ => None end).
Theorem C97_self_reference_limit z :
  gives (clone ex_passes ex_created ex_init 9 (Cst (self_loop z) [] 0) 0) (fun '(st1, b) =>
    show [0; 1] (hp st1) b = [Some (VObj 2); Some (VInt z)] /\
    show [0; 1] (hp st1) 2 = [Some VNone; Some (VInt 0)] /\
    gives (clone ex_passes ex_created ex_init 9 st1 0) (fun '(st2, b2) =>
      show [0; 1] (hp st2) b2 = [Some VNone; Some (VInt 0)])).
Proof. vm_compute. auto. Qed.

(** A cycle through a second object field is never detected: object 0 has the fields 1
    and 2, and object 2 refers back to 0. The copy does not end. *)
Definition late_loop : heap :=
  Heap 3 (fun o => match o with
    | 0 => Some (2, ex_attrs (VObj 1) (VObj 2))
    | 1 => Some (1, ex_init 1)
    | 2 => Some (2, ex_attrs (VObj 1) (VObj 0))
    | _ => None end).
Lemma copy_S passes created init fuel st self rhs :
  copy passes created init (S fuel) st self rhs =
  if existsb (Nat.eqb rhs) (gmap st) then Ok (Cst (hp st) (gmap st) 0)
  else match foldr_res (copy_field created init (copy passes created init fuel) self rhs) (concat (passes (class_of (hp st) self)))
               (Cst (hp st) (rhs :: gmap st) 1) with
       | Ok st1 => Ok (Cst (hp st1) (if (depth st1 - 1 =? 0)%Z then [] else gmap st1) (depth st1 - 1))
       | e => e
       end.
Proof. reflexivity. Qed.
Lemma late_loop_copy : forall n m st self rhs, m <= n ->
  (rhs = 0 \/ rhs = 2) ->
  (forall o, o < 3 -> obj (hp st) o = obj late_loop o) -> 3 <= next (hp st) -> 3 <= self < next (hp st) ->
  (exists fl, obj (hp st) self = Some (2, fl)) ->
  ~ In rhs (gmap st) -> ~ In 1 (gmap st) ->
  copy ex_passes ex_created ex_init m st self rhs = OutOfFuel.
Proof.
  induction n as [|n IH]; intros m st self rhs Hm Hr H3 HN HS (fl & Hf) NR N1.
  - replace m with 0 by lia. reflexivity.
  - destruct m as [|m]; [reflexivity|]. cbn [copy].
    assert (E : existsb (Nat.eqb rhs) (gmap st) = false).
    { apply not_true_is_false. intros E. apply existsb_exists in E. destruct E as (a & Ia & Ea). apply Nat.eqb_eq in Ea. subst a. contradiction. }
    rewrite E. unfold class_of at 1. rewrite Hf. cbn [ex_passes concat app foldr_res].
    unfold copy_field at 1. change (copyable (snd (0, UVM_DEFAULT))) with true. cbn [fst hp].
    assert (G0 : getattr (hp st) rhs 0 = Some (VObj 1)) by (unfold getattr; destruct Hr as [->| ->]; rewrite H3 by lia; reflexivity).
    rewrite G0. unfold create. rewrite (H3 1) by lia. cbn [late_loop obj ex_created].
    destruct m as [|m]; [reflexivity|]. rewrite copy_S. cbn [gmap hp].
    assert (E1 : existsb (Nat.eqb 1) (rhs :: gmap st) = false).
    { cbn [existsb]. apply orb_false_iff. split; [destruct Hr as [->| ->]; reflexivity|].
      apply not_true_is_false. intros X. apply existsb_exists in X. destruct X as (a & Ia & Ea). apply Nat.eqb_eq in Ea. subst a. contradiction. }
    rewrite E1. unfold class_of. cbn [obj]. rewrite upd_eq. change (ex_created 1) with 1. cbn [ex_passes concat foldr_res depth gmap hp Z.sub Z.eqb Z.add Z.opp Z.pos_sub].
    set (h1 := Heap _ _).
    assert (ES1 : obj h1 self = Some (2, fl)) by (unfold h1; cbn [obj]; rewrite upd_neq by lia; exact Hf).
    set (h2 := setattr h1 self 0 (VObj (next (hp st)))).
    assert (O2 : forall o, obj h2 o = if Nat.eqb o self then Some (2, upd fl 0 (Some (VObj (next (hp st))))) else obj h1 o)
      by (intros o; exact (setattr_obj _ _ _ _ _ _ o ES1)).
    assert (N2 : next h2 = S (next (hp st))) by (unfold h2; now rewrite setattr_next).
    assert (L2 : forall o, o < 3 -> obj h2 o = obj late_loop o).
    { intros o Lo. rewrite O2. destruct (Nat.eqb_spec o self); [lia|]. unfold h1. cbn [obj]. rewrite upd_neq by lia. now apply H3. }
    unfold copy_field. change (copyable (snd (1, UVM_DEFAULT))) with true. cbn [fst hp gmap depth].
    set (other := if Nat.eqb rhs 0 then 2 else 0).
    assert (G1 : getattr h2 rhs 1 = Some (VObj other)) by (unfold getattr, other; destruct Hr as [->| ->]; rewrite L2 by lia; reflexivity).
    rewrite G1. unfold create. assert (Oo : obj h2 other = obj late_loop other) by (apply L2; unfold other; destruct (Nat.eqb rhs 0); lia).
    rewrite Oo. assert (Co : match obj late_loop other with Some (c, _) => ex_created c | None => 0 end = 2) by (unfold other; destruct (Nat.eqb rhs 0); reflexivity).
    rewrite Co. rewrite (IH (S m)); [reflexivity|lia| | | | | | |]; cbn [hp gmap next obj].
    + unfold other. destruct (Nat.eqb rhs 0); auto.
    + intros o Lo. rewrite upd_neq by lia. now apply L2.
    + lia.
    + lia.
    + exists (ex_init 2). apply upd_eq.
    + intros [].
    + intros [].
Qed.
Theorem C97_cycle_limit n : clone ex_passes ex_created ex_init n (Cst late_loop [] 0) 0 = OutOfFuel.
Proof.
  unfold clone. cbn [create hp late_loop obj gmap depth].
  rewrite (late_loop_copy n n); [reflexivity|lia|auto| | | | | |]; cbn.
  - intros o Lo. apply upd_neq. lia.
  - lia.
  - lia.
  - eexists. reflexivity.
  - intros [].
  - intros [].
Qed.
Print Assumptions C97_copy.
Print Assumptions C97_self_reference_limit.
Print Assumptions C97_cycle_limit.

(** Whatever the objects are, cyclic or not: a copy that returns has changed no object
    that existed before except the one copied to, and of that one no attribute but
    those declared as copied. *)
Lemma copy_frame passes created init : forall fuel st self rhs st', self < next (hp st) ->
  copy passes created init fuel st self rhs = Ok st' ->
  next (hp st) <= next (hp st') /\
  (forall o, o < next (hp st) -> o <> self -> obj (hp st') o = obj (hp st) o) /\
  class_of (hp st') self = class_of (hp st) self /\
  (forall f, ~ In f (copied_fields passes (class_of (hp st) self)) -> getattr (hp st') self f = getattr (hp st) self f).
Proof.
  induction fuel as [|fuel IH]; intros st self rhs st' Ls E; [discriminate E|]. cbn [copy] in E.
  destruct (existsb (Nat.eqb rhs) (gmap st)).
  { injection E as <-. cbn [hp]. auto. }
  set (c := class_of (hp st) self) in *.
  assert (F : forall fs st0 st1, self < next (hp st0) ->
    foldr_res (copy_field created init (copy passes created init fuel) self rhs) fs st0 = Ok st1 ->
    next (hp st0) <= next (hp st1) /\
    (forall o, o < next (hp st0) -> o <> self -> obj (hp st1) o = obj (hp st0) o) /\
    class_of (hp st1) self = class_of (hp st0) self /\
    (forall f, ~ In f (map fst (filter (fun f => flagged 1 2 (snd f)) fs)) -> getattr (hp st1) self f = getattr (hp st0) self f)).
  { assert (SA : forall h f v, (forall o, o <> self -> obj (setattr h self f v) o = obj h o) /\
      class_of (setattr h self f v) self = class_of h self /\
      (forall g, g <> f -> getattr (setattr h self f v) self g = getattr h self g)).
    { intros h f v. unfold setattr, class_of, getattr. destruct (obj h self) as [[k fl]|] eqn:Eo.
      - cbn [obj]. split; [intros o N; apply upd_neq; congruence|]. rewrite !upd_eq. split; [reflexivity|].
        intros g N. apply upd_neq. congruence.
      - rewrite Eo. auto. }
    induction fs as [|[f m] fs IHf]; intros st0 st1 L0 E0; cbn [foldr_res] in E0.
    { injection E0 as <-. auto. }
    destruct (copy_field created init (copy passes created init fuel) self rhs st0 (f, m)) as [s2| |] eqn:E2; try discriminate E0.
    assert (H2 : next (hp st0) <= next (hp s2) /\
      (forall o, o < next (hp st0) -> o <> self -> obj (hp s2) o = obj (hp st0) o) /\
      class_of (hp s2) self = class_of (hp st0) self /\
      (forall g, (flagged 1 2 m = true -> g <> f) -> getattr (hp s2) self g = getattr (hp st0) self g)).
    { unfold copy_field in E2. cbn [fst snd] in E2. rewrite copyable_flag in E2.
      destruct (flagged 1 2 m); [|injection E2 as <-; auto].
      destruct (getattr (hp st0) rhs f) as [v|] eqn:Ev; [|discriminate E2].
      assert (NV : forall s, s = Cst (setattr (hp st0) self f v) (gmap st0) (depth st0) -> s = s2 ->
        next (hp st0) <= next (hp s2) /\
        (forall o, o < next (hp st0) -> o <> self -> obj (hp s2) o = obj (hp st0) o) /\
        class_of (hp s2) self = class_of (hp st0) self /\
        (forall g, (true = true -> g <> f) -> getattr (hp s2) self g = getattr (hp st0) self g)).
      { intros s -> <-. cbn [hp]. rewrite setattr_next. destruct (SA (hp st0) f v) as (S1 & S2 & S3).
        split; [lia|]. split; [auto|]. split; [exact S2|]. auto. }
      destruct v as [|z|z|z|o]; try (injection E2 as E2; exact (NV _ eq_refl E2)). clear NV.
      unfold create in E2.
      set (cc := match obj (hp st0) o with Some (c0, _) => created c0 | None => 0 end) in *.
      destruct (copy passes created init fuel _ (next (hp st0)) o) as [s3| |] eqn:E3; try discriminate E2.
      injection E2 as <-. cbn [hp]. apply IH in E3; [|cbn; lia]. cbn [hp next obj] in E3.
      destruct E3 as (N3 & O3 & _ & _).
      assert (OS : obj (hp s3) self = obj (hp st0) self).
      { rewrite O3 by lia. apply upd_neq. lia. }
      destruct (SA (hp s3) f (VObj (next (hp st0)))) as (S1 & S2 & S3).
      rewrite setattr_next. split; [lia|]. split.
      - intros p Lp Np. rewrite S1 by assumption. rewrite O3 by lia. apply upd_neq. lia.
      - split; [rewrite S2; unfold class_of; now rewrite OS|].
        intros g Hg. rewrite S3 by auto. unfold getattr. now rewrite OS. }
    destruct H2 as (N2 & O2 & C2 & G2). apply IHf in E0; [|lia]. destruct E0 as (N1 & O1 & C1 & G1).
    split; [lia|]. split; [intros p Lp Np; rewrite O1 by lia; auto|]. split; [congruence|].
    cbn [filter map snd fst] in *. intros g Hg. rewrite G1.
    - apply G2. intros Em. rewrite Em in Hg. intros ->. apply Hg. now left.
    - destruct (flagged 1 2 m); [|exact Hg]. intros I. apply Hg. now right. }
  destruct (foldr_res _ _ _) as [st1| |] eqn:E1 in E; try discriminate E. injection E as <-. cbn [hp].
  apply F in E1; [|exact Ls]. cbn [hp] in E1. exact E1.
Qed.
Theorem C97_frame passes created init fuel st b a st' : b < next (hp st) ->
  copy passes created init fuel st b a = Ok st' ->
  (forall o, o < next (hp st) -> o <> b -> obj (hp st') o = obj (hp st) o) /\
  class_of (hp st') b = class_of (hp st) b /\
  (forall f, (forall m, In (f, m) (concat (passes (class_of (hp st) b))) -> Z.land m 1 = 0%Z \/ Z.land m 2 <> 0%Z) ->
     getattr (hp st') b f = getattr (hp st) b f).
Proof.
  intros L E. destruct (copy_frame passes created init fuel st b a st' L E) as (_ & H1 & H2 & H3).
  split; [exact H1|]. split; [exact H2|]. intros f Hf. apply H3. unfold copied_fields. intros I.
  apply in_map_iff in I. destruct I as ([g m] & <- & I). cbn [fst] in *. apply filter_In in I. destruct I as [I Fm].
  cbn [snd] in Fm. unfold flagged in Fm. apply andb_true_iff in Fm. destruct Fm as [F1 F2].
  apply negb_true_iff, Z.eqb_neq in F1. apply Z.eqb_eq in F2. destruct (Hf m I); contradiction.
Qed.
Print Assumptions C97_frame.
(** Field 0 copied, field 1 declared with UVM_ALL_ON | UVM_NOCOPY. *)
Example C97_frame_example :
  gives (copy (fun _ => [[(0, UVM_DEFAULT); (1, 343%Z)]]) ex_created ex_init 9
           (Cst (Heap 2 (fun o => match o with
              | 0 => Some (0, ex_attrs (VInt 5) (VInt 7))
              | 1 => Some (0, ex_attrs (VInt 6) (VInt 8)) | _ => None end)) [] 0) 1 0) (fun st' =>
    show [0; 1] (hp st') 1 = [Some (VInt 5); Some (VInt 8)]).
Proof. vm_compute. auto. Qed.

(** ** C98: compare *)
Section C98.
Variable passes : nat -> list (list (nat * Z)).
Variables (check_type : bool) (show_max : Z) (do_compare : nat -> nat -> bool).

(** A compare called by the user (nothing on the scope stack) of two acyclic objects
    with the same classes at the same places and differing in ints only, where no
    object of the right is at the same place as two objects of the left: true exactly
    if the trees of values are equal and do_compare agrees. *)
Theorem C98_compare fuel h st l r t1 t2 :
  size t1 <= fuel -> sdepth st = 0 ->
  den (compared_fields passes) h (VObj l) t1 -> den (compared_fields passes) h (VObj r) t2 ->
  same_shape t1 t2 ->
  (forall p p' q, together (compared_fields passes) h (VObj l) (VObj r) p q ->
    together (compared_fields passes) h (VObj l) (VObj r) p' q -> p = p') ->
  exists st' b, compare passes false check_type show_max do_compare fuel h st l r = Ok (st', b) /\ sdepth st' = 0 /\
    (b = true <-> t1 = t2 /\ do_compare l r = true).
Proof.
  intros F S D1 D2 Sh U.
  refine (compare_top passes check_type show_max do_compare h (together (compared_fields passes) h (VObj l) (VObj r)) U
    fuel l r t1 t2 st F S D1 D2 Sh (fun p q H => H)).
Qed.
End C98.

Definition yes (_ _ : nat) := true.
Definition ex_compare h l r := compare ex_passes false true 1 yes 9 h (Mst 0 [] 0) l r.
Definition answer (x : res (mst * bool)) : option bool := match x with Ok (_, b) => Some b | _ => None end.
(** Objects 0 and 2 of class 0, each with an object below it. *)
Definition pair_heap (a b : Z) : heap :=
  Heap 4 (fun o => match o with
    | 0 => Some (0, ex_attrs (VObj 1) (VInt 7))
    | 1 => Some (0, ex_attrs VNone (VInt a))
    | 2 => Some (0, ex_attrs (VObj 3) (VInt 7))
    | 3 => Some (0, ex_attrs VNone (VInt b))
    | _ => None end).
Lemma pair_den a b o (x := match o with 0 => 1 | _ => 3 end) (z := match o with 0 => a | _ => b end) :
  o = 0 \/ o = 2 ->
  den (compared_fields ex_passes) (pair_heap a b) (VObj o) (TObj 0 [TObj 0 [TNone; TInt z]; TInt 7]).
Proof.
  intros [->| ->]; subst x z; apply den_obj; (eexists _, _; split; [reflexivity|]; split; [reflexivity|]);
  (constructor; [|constructor; [|constructor]]; eexists; (split; [reflexivity|]); [|reflexivity]);
  apply den_obj; (eexists _, _; split; [reflexivity|]; split; [reflexivity|]);
  (constructor; [|constructor; [|constructor]]; eexists; (split; reflexivity)).
Qed.
Example C98_hypotheses a b :
  den (compared_fields ex_passes) (pair_heap a b) (VObj 0) (TObj 0 [TObj 0 [TNone; TInt a]; TInt 7]) /\
  den (compared_fields ex_passes) (pair_heap a b) (VObj 2) (TObj 0 [TObj 0 [TNone; TInt b]; TInt 7]) /\
  same_shape (TObj 0 [TObj 0 [TNone; TInt a]; TInt 7]) (TObj 0 [TObj 0 [TNone; TInt b]; TInt 7]) /\
  (forall p p' q, together (compared_fields ex_passes) (pair_heap a b) (VObj 0) (VObj 2) p q ->
    together (compared_fields ex_passes) (pair_heap a b) (VObj 0) (VObj 2) p' q -> p = p').
Proof.
  split; [apply (pair_den a b 0); auto|]. split; [apply (pair_den a b 2); auto|].
  split; [cbn; auto 10|].
  assert (T1 : forall v v' p q, together (compared_fields ex_passes) (pair_heap a b) v v' p q -> v = VObj 1 -> v' = VObj 3 -> p = 1 /\ q = 3).
  { destruct 1 as [x y|x y c fl fl' f v v' p q Hx Hy If Ef Ef' T]; intros E1 E2; injection E1 as ->; injection E2 as ->; [auto|].
    injection Hx as <- <-. destruct If as [<-|[<-|[]]]; cbn in Ef; injection Ef as <-; inversion T. }
  assert (T0 : forall p q, together (compared_fields ex_passes) (pair_heap a b) (VObj 0) (VObj 2) p q -> p = 0 /\ q = 2 \/ p = 1 /\ q = 3).
  { intros p q T. inversion T as [|? ? c fl fl' f v v' ? ? Hx Hy If Ef Ef' T']; subst; [auto|].
    injection Hx as <- <-. injection Hy as <-. right.
    destruct If as [<-|[<-|[]]]; cbn in Ef, Ef'; injection Ef as <-; injection Ef' as <-; [|inversion T'].
    exact (T1 _ _ _ _ T' eq_refl eq_refl). }
  intros p p' q H H'. apply T0 in H. apply T0 in H'. lia.
Qed.
Example C98_example : answer (ex_compare (pair_heap 5 5) 0 2) = Some true /\ answer (ex_compare (pair_heap 5 6) 0 2) = Some false.
Proof. split; vm_compute; reflexivity. Qed.

(** Object 0 holds one object twice, object 2 holds two equal objects: equal one way
    and different the other way round. *)
Definition shared_heap : heap :=
  Heap 5 (fun o => match o with
    | 0 => Some (2, ex_attrs (VObj 1) (VObj 1))
    | 1 => Some (0, ex_attrs VNone (VInt 8))
    | 2 => Some (2, ex_attrs (VObj 3) (VObj 4))
    | 3 => Some (0, ex_attrs VNone (VInt 8))
    | 4 => Some (0, ex_attrs VNone (VInt 8))
    | _ => None end).
Theorem C98_shared_limit :
  answer (ex_compare shared_heap 0 2) = Some true /\ answer (ex_compare shared_heap 2 0) = Some false /\
  exists t, den (compared_fields ex_passes) shared_heap (VObj 0) t /\ den (compared_fields ex_passes) shared_heap (VObj 2) t.
Proof.
  split; [vm_compute; reflexivity|]. split; [vm_compute; reflexivity|].
  exists (TObj 2 [TObj 0 [TNone; TInt 8]; TObj 0 [TNone; TInt 8]]).
  split; apply den_obj; (eexists _, _; split; [reflexivity|]; split; [reflexivity|]);
  (constructor; [|constructor; [|constructor]]; eexists; (split; [reflexivity|]));
  apply den_obj; (eexists _, _; split; [reflexivity|]; split; [reflexivity|]);
  (constructor; [|constructor; [|constructor]]; eexists; (split; reflexivity)).
Qed.

(** Two objects of class 0 with the values [a] and [b] in the first field. *)
Definition two (a b : val) : heap :=
  Heap 2 (fun o => match o with
    | 0 => Some (0, ex_attrs a (VInt 7)) | 1 => Some (0, ex_attrs b (VInt 7)) | _ => None end).
(** A None on the left, or any value which is no int, str or uvm object, is not
    compared with anything. *)
Theorem C98_none_limit b : answer (ex_compare (two VNone b) 0 1) = Some true.
Proof. destruct b; vm_compute; reflexivity. Qed.
Theorem C98_other_limit n b : answer (ex_compare (two (VOther n) b) 0 1) = Some true.
Proof.
  unfold ex_compare, compare, two, ex_passes. cbn.
  destruct (match b with VOther x => Nat.eqb x n | _ => false end) eqn:E; destruct b; cbn in *; rewrite ?E; reflexivity.
Qed.
(** Strings that differ raise an exception. *)
Theorem C98_string_limit s s' : s <> s' -> ex_compare (two (VStr s) (VStr s')) 0 1 = Exn.
Proof.
  intros N. unfold ex_compare, compare, two, ex_passes. cbn.
  destruct (Nat.eqb_spec s' s) as [->|]; [congruence|reflexivity].
Qed.
(** The answer of do_compare of a field object is not used. *)
Theorem C98_nested_do_compare_limit :
  answer (compare ex_passes false true 1 (fun l r => Nat.eqb l 0) 9 (pair_heap 5 5) (Mst 0 [] 0) 0 2) = Some true.
Proof. vm_compute. reflexivity. Qed.
(** A comparison that returns never takes back a mismatch. *)
Lemma compare_mono passes ref ct sm dc h : forall fuel st l r st' b,
  sdepth st <> 0 -> compare passes ref ct sm dc fuel h st l r = Ok (st', b) ->
  (result st + (if ct && negb (Nat.eqb (class_of h l) (class_of h r)) && match lookup r (cmap st) with None => true | _ => false end
     then 1 else 0) <= result st')%Z /\
  sdepth st' = (if Nat.eqb (sdepth st) 1 then 0 else sdepth st) /\ (b = true -> result st' = 0%Z).
Proof.
  induction fuel as [|fuel IH]; intros st l r st' b Sd0 E; [discriminate E|]. cbn [compare] in E.
  destruct (Nat.eqb_spec (sdepth st) 0) as [?|_]; [contradiction|].
  destruct (lookup r (cmap st)) as [l'|].
  { rewrite andb_false_r. destruct (Nat.eqb l' l); injection E as <- <-; cbn; rewrite andb_false_r; (split; [lia|]); split; congruence || reflexivity. }
  rewrite andb_true_r.
  set (st0 := if ct && negb (Nat.eqb (class_of h l) (class_of h r)) then miss st else st) in *.
  assert (M0 : result st0 = (result st + (if ct && negb (Nat.eqb (class_of h l) (class_of h r)) then 1 else 0))%Z)
    by (subst st0; destruct (_ && _); cbn; lia).
  assert (S0 : sdepth st0 = sdepth st) by (subst st0; destruct (_ && _); reflexivity).
  clearbody st0. rewrite <- M0. clear M0.
  assert (P1 : forall fs s s', sdepth s <> 0 -> compare_pass ref sm h (compare passes ref ct sm dc fuel h) l r fs s = Ok s' ->
    (result s <= result s')%Z /\ sdepth s' = sdepth s).
  { induction fs as [|[f m] fs IHf]; intros s s' Ss Es; cbn [compare_pass] in Es.
    { injection Es as <-. split; [lia|reflexivity]. }
    destruct (comparable (snd (f, m))); [|exact (IHf s s' Ss Es)].
    destruct (getattr h r _) as [vr|]; [|discriminate Es]. destruct (getattr h l _) as [vl|]; [|discriminate Es].
    destruct (val_eqb vr vl); [exact (IHf s s' Ss Es)|].
    destruct (compare_one ref h _ s vl vr) as [s1| |] eqn:E1; try discriminate Es.
    assert (H1 : (result s <= result s1)%Z /\ sdepth s1 = sdepth s).
    { unfold compare_one in E1. destruct vl as [|x|x|x|lo].
      - injection E1 as <-. split; [lia|reflexivity].
      - destruct vr as [|z|z|z|z]; try discriminate E1. destruct (compare_field x z 0) as [[]|]; injection E1 as <-; cbn; (split; [lia|reflexivity]).
      - discriminate E1.
      - injection E1 as <-. split; [lia|reflexivity].
      - destruct ref; [injection E1 as <-; cbn; split; [lia|reflexivity]|].
        destruct vr as [|z|z|z|ro]; try discriminate E1; [injection E1 as <-; cbn; split; [lia|reflexivity]|].
        destruct (compare passes false ct sm dc fuel h _ lo ro) as [[s2 b2]| |] eqn:E2; try discriminate E1.
        injection E1 as <-. apply IH in E2; [|cbn; lia]. cbn [result sdepth] in *. destruct E2 as (M2 & D2 & _).
        split.
        + destruct (_ && _ && _) in M2; lia.
        + rewrite D2. destruct (Nat.eqb_spec (S (sdepth s)) 1); [lia|]. cbn. lia. }
    destruct H1 as (M1 & D1).
    destruct (_ && _) in Es.
    - injection Es as <-. auto.
    - apply IHf in Es; [|lia]. split; [lia|]. destruct Es as (_ & ->). exact D1. }
  assert (P2 : forall ps s s', sdepth s <> 0 ->
    foldr_res (fun st fs => compare_pass ref sm h (compare passes ref ct sm dc fuel h) l r fs st) ps s = Ok s' ->
    (result s <= result s')%Z /\ sdepth s' = sdepth s).
  { induction ps as [|fs ps IHp]; intros s s' Ss Es; cbn [foldr_res] in Es.
    { injection Es as <-. split; [lia|reflexivity]. }
    destruct (compare_pass _ _ _ _ _ _ _ _) as [s1| |] eqn:E1 in Es; try discriminate Es.
    apply P1 in E1; [|assumption]. apply IHp in Es; [|lia]. split; [lia|]. destruct Es as (_ & ->), E1 as (_ & ->). reflexivity. }
  destruct (foldr_res _ _ _) as [s1| |] eqn:E1 in E; try discriminate E.
  apply P2 in E1; [|cbn; lia]. cbn [result sdepth] in E1. destruct E1 as (M1 & D1). injection E as <- <-. cbn [result sdepth].
  split; [exact M1|]. split.
  - rewrite D1, S0. reflexivity.
  - intros H. apply andb_true_iff in H. destruct H as [H _]. now apply Z.eqb_eq in H.
Qed.
(** Objects of different classes are different when types are checked, whatever the
    comparer's other settings and whatever the fields are. *)
Theorem C98_check_type passes ref sm dc fuel h st l r st' b :
  sdepth st = 0 -> class_of h l <> class_of h r ->
  compare passes ref true sm dc fuel h st l r = Ok (st', b) -> b = false.
Proof.
  intros S N E. destruct b; [|reflexivity]. exfalso.
  assert (E1 : compare passes ref true sm dc fuel h (Mst 0 [] 1) l r = Ok (st', true)).
  { destruct fuel as [|fuel]; [discriminate E|]. cbn [compare] in *. rewrite S in E. exact E. }
  apply compare_mono in E1; [|cbn; lia]. destruct E1 as (M & _ & R). specialize (R eq_refl).
  cbn [result cmap lookup] in M. destruct (Nat.eqb_spec (class_of h l) (class_of h r)); [contradiction|]. cbn in M. lia.
Qed.
(** Policy UVM_REFERENCE: objects compare equal exactly when every compared field holds
    the same int or the very same object. *)
Definition by_reference (h : heap) (l r f : nat) : Prop :=
  exists vl vr, getattr h l f = Some vl /\ getattr h r f = Some vr /\
    match vl, vr with VObj _, _ => True | VInt _, VInt _ => True | _, _ => False end.
Theorem C98_reference passes sm dc ct fuel h st l r :
  sdepth st = 0 -> class_of h l = class_of h r ->
  (forall f, In f (compared_fields passes (class_of h l)) -> by_reference h l r f) ->
  exists st' b, compare passes true ct sm dc (S fuel) h st l r = Ok (st', b) /\
    (b = true <-> (forall f, In f (compared_fields passes (class_of h l)) -> getattr h l f = getattr h r f) /\ dc l r = true).
Proof.
  intros S C H. cbn [compare]. rewrite S, C, !Nat.eqb_refl. cbn [Nat.eqb sdepth cmap lookup negb result].
  rewrite andb_false_r. cbn [result cmap sdepth]. rewrite <- C.
  assert (P1 : forall fs s, (forall f, In f (map fst (filter (fun f => flagged 4 8 (snd f)) fs)) -> by_reference h l r f) -> (0 <= result s)%Z ->
    exists s', compare_pass true sm h (compare passes true ct sm dc fuel h) l r fs s = Ok s' /\ (0 <= result s')%Z /\
      (result s' = 0%Z <-> result s = 0%Z /\ forall f, In f (map fst (filter (fun f => flagged 4 8 (snd f)) fs)) -> getattr h l f = getattr h r f)).
  { induction fs as [|[f m] fs IHf]; intros s Hf Rs; cbn [compare_pass].
    { exists s. split; [reflexivity|]. split; [assumption|]. split; [intros E; split; [exact E|intros ? []]|tauto]. }
    cbn [snd fst]. rewrite comparable_flag. cbn [filter map snd] in *. destruct (flagged 4 8 m) eqn:Em; [|apply IHf; assumption].
    cbn [map fst] in *. destruct (Hf f (or_introl eq_refl)) as (vl & vr & El & Er & K). rewrite El, Er.
    destruct (val_eqb vr vl) eqn:Ev.
    - apply val_eqb_eq in Ev. subst vr. destruct (IHf s (fun g I => Hf g (or_intror I)) Rs) as (s' & E & R' & I').
      exists s'. split; [exact E|]. split; [exact R'|]. rewrite I'. split.
      + intros (A & B). split; [exact A|]. intros g [<-|I]; [congruence|auto].
      + intros (A & B). split; [exact A|]. intros g I. apply B. now right.
    - assert (Nv : vl <> vr) by (intros X; subst vr; rewrite (proj2 (val_eqb_eq vl vl) eq_refl) in Ev; discriminate Ev).
      assert (E1 : compare_one true h (compare passes true ct sm dc fuel h) s vl vr = Ok (miss s)).
      { destruct vl as [|x| | |o]; try contradiction; [|reflexivity]. destruct vr as [|z| | |]; try contradiction. cbn [compare_one].
        pose proof (C61_all_bits x z 0 ltac:(lia)) as X. rewrite X. destruct (Z.eqb_spec x z); [congruence|reflexivity]. }
      rewrite E1.
      destruct (negb (result (miss s) =? 0)%Z && (sm <=? result (miss s))%Z).
      + exists (miss s). split; [reflexivity|]. cbn [miss result]. split; [lia|]. split; [lia|]. intros (A & B).
        exfalso. apply Nv. specialize (B f (or_introl eq_refl)). congruence.
      + destruct (IHf (miss s) (fun g I => Hf g (or_intror I)) ltac:(cbn; lia)) as (s' & E & R' & I').
        exists s'. split; [exact E|]. split; [exact R'|]. rewrite I'. cbn [miss result]. split; [lia|].
        intros (A & B). exfalso. apply Nv. specialize (B f (or_introl eq_refl)). congruence. }
  assert (P2 : forall ps s, (forall f, In f (map fst (filter (fun f => flagged 4 8 (snd f)) (concat ps))) -> by_reference h l r f) -> (0 <= result s)%Z ->
    exists s', foldr_res (fun st fs => compare_pass true sm h (compare passes true ct sm dc fuel h) l r fs st) ps s = Ok s' /\ (0 <= result s')%Z /\
      (result s' = 0%Z <-> result s = 0%Z /\ forall f, In f (map fst (filter (fun f => flagged 4 8 (snd f)) (concat ps))) -> getattr h l f = getattr h r f)).
  { induction ps as [|fs ps IHp]; intros s Hf Rs; cbn [foldr_res concat].
    { exists s. split; [reflexivity|]. split; [assumption|]. split; [intros E; split; [exact E|intros ? []]|tauto]. }
    cbn [concat] in Hf. setoid_rewrite filter_app in Hf. setoid_rewrite map_app in Hf. setoid_rewrite in_app_iff in Hf.
    destruct (P1 fs s (fun g I => Hf g (or_introl I)) Rs) as (s1 & E1 & R1 & I1). rewrite E1.
    destruct (IHp s1 (fun g I => Hf g (or_intror I)) R1) as (s2 & E2 & R2 & I2). exists s2.
    split; [exact E2|]. split; [exact R2|]. rewrite I2, I1. rewrite filter_app, map_app. setoid_rewrite in_app_iff. split.
    - intros ((A & B) & D). split; [exact A|]. intros g [I|I]; auto.
    - intros (A & B). split; [split; [exact A|]|]; intros g I; apply B; auto. }
  destruct (P2 (passes (class_of h l)) (Mst 0 [(r, l)] 1) H ltac:(cbn; lia)) as (s' & E & R' & I').
  rewrite E. eexists _, _. split; [reflexivity|]. cbn [result] in I'. rewrite andb_true_iff, Z.eqb_eq, I'.
  unfold compared_fields. tauto.
Qed.
Example C98_reference_example :
  answer (compare ex_passes true true 1 yes 9 (pair_heap 5 5) (Mst 0 [] 0) 0 2) = Some false /\
  answer (compare ex_passes true true 1 yes 9 (pair_heap 5 5) (Mst 0 [] 0) 0 0) = Some true /\
  answer (compare ex_passes false true 1 yes 9 shared_heap (Mst 0 [] 0) 0 3) <> Some true.
Proof. vm_compute. repeat split. discriminate. Qed.
Print Assumptions C98_check_type.
Print Assumptions C98_reference.
Print Assumptions C98_compare.
Print Assumptions C98_shared_limit.
Print Assumptions C98_none_limit.
Print Assumptions C98_other_limit.
Print Assumptions C98_string_limit.
Print Assumptions C98_nested_do_compare_limit.

(** ** C99: a copy compares equal *)
Section C99.
Variable passes : nat -> list (list (nat * Z)).
Variable created : nat -> nat.
Variable init : nat -> attrs.
Variables (check_type : bool) (show_max : Z) (do_compare : nat -> nat -> bool).
Hypothesis same_fields : forall c, copied_fields passes c = compared_fields passes c.

Lemma den_sel s1 s2 h v t : (forall c : nat, s1 c = s2 c) -> den s1 h v t -> den s2 h v t.
Proof.
  intros Q. assert (H : forall n t, size t <= n -> forall v, den s1 h v t -> den s2 h v t).
  { induction n as [|n IH]; intros u Hn w D; [destruct u; cbn in Hn; lia|].
    destruct u as [|z|s|k|c ts]; try exact D. apply den_obj in D. apply den_obj.
    destruct D as (o & fl & E & Ho & F). exists o, fl. split; [exact E|]. split; [exact Ho|]. rewrite <- Q.
    rewrite size_obj in Hn. refine (Forall2_impl_in _ _ _ _ _ F). intros f u If Iu (w' & Ew & Dw). exists w'. split; [exact Ew|].
    apply IH; [apply sizes_in in Iu; lia|exact Dw]. }
  apply (H (size t)). lia.
Qed.
Lemma together_sel s1 s2 h v v' p q : (forall c : nat, s1 c = s2 c) -> together s1 h v v' p q -> together s2 h v v' p q.
Proof.
  intros Q. induction 1 as [a b|a b c fl fl' f v v' p q Ha Hb If Ef Ef' T IH]; [constructor|].
  rewrite Q in If. econstructor; eassumption.
Qed.

(** For every acyclic object all of whose fields are both copied and compared, whether
    or not it holds an object several times: after b.copy(a), a.compare(b). *)
Theorem C99_copy_compare st a b t mst0 :
  (forall c, created c = c) -> well_formed (hp st) -> gmap st = [] ->
  den (copied_fields passes) (hp st) (VObj a) t ->
  (exists x, obj (hp st) b = Some x) -> class_of (hp st) b = class_of (hp st) a ->
  ~ reach (copied_fields passes) (hp st) (VObj a) b ->
  sdepth mst0 = 0 -> do_compare a b = true ->
  exists st' mst', copy passes created init (size t) st b a = Ok st' /\
    compare passes false check_type show_max do_compare (size t) (hp st') mst0 a b = Ok (mst', true).
Proof.
  intros HC W G D X E N S DC.
  assert (P : Pre passes st b a t).
  { split; [exact W|]. split; [exact D|]. split; [exact X|]. split; [exact E|]. split; [exact N|]. rewrite G. intros ? []. }
  destruct (copy_ok passes created init HC (size t) t (le_n _) st b a P) as (st' & E' & G' & W' & N' & A' & D' & R' & org & O).
  exists st'.
  assert (Da : den (copied_fields passes) (hp st') (VObj a) t).
  { apply (den_agree _ (hp st)); [|exact D]. intros o R. apply A'.
    - destruct (reach_obj _ _ _ _ _ R D) as (x & Ex). exact (W _ _ Ex).
    - intros ->. contradiction. }
  destruct (C98_compare passes check_type show_max do_compare (size t) (hp st') mst0 a b t t (le_n _) S) as (m' & r & Em & _ & Q).
  - exact (den_sel _ _ _ _ _ same_fields Da).
  - exact (den_sel _ _ _ _ _ same_fields D').
  - apply same_shape_refl.
  - intros p p' q T T'. apply (together_sel _ _ _ _ _ _ _ (fun c => eq_sym (same_fields c))) in T, T'.
    apply O in T, T'. congruence.
  - exists m'. split; [exact E'|]. rewrite Em. rewrite (proj2 Q); auto.
Qed.

(** The object at the end of a path of fields. *)
Inductive at_path (h : heap) : val -> list nat -> nat -> Prop :=
| at_here o : at_path h (VObj o) [] o
| at_field o c fl f v p q : obj h o = Some (c, fl) -> In f (copied_fields passes c) -> fl f = Some v ->
    at_path h v p q -> at_path h (VObj o) (f :: p) q.
Lemma at_path_fun h v p q : at_path h v p q -> forall q', at_path h v p q' -> q = q'.
Proof.
  induction 1 as [o|o c fl f v p q Ho If Ef R IH]; intros q' R'; inversion R' as [|? c' fl' ? v' ? ? Ho' If' Ef' R1]; subst; [reflexivity|].
  rewrite Ho in Ho'. injection Ho' as <- <-. rewrite Ef in Ef'. injection Ef' as <-. now apply IH.
Qed.
Lemma together_path h v v' p q : together (copied_fields passes) h v v' p q -> exists w, at_path h v w p /\ at_path h v' w q.
Proof.
  induction 1 as [a b|a b c fl fl' f v v' p q Ha Hb If Ef Ef' T (w & W1 & W2)].
  - exists []. split; constructor.
  - exists (f :: w). split; econstructor; eassumption.
Qed.
Lemma at_path_reach h v w p : at_path h v w p -> reach (copied_fields passes) h v p.
Proof. induction 1; econstructor; eassumption. Qed.
Lemma at_path_agree h h' v w p : at_path h' v w p -> agree (copied_fields passes) h h' v -> at_path h v w p.
Proof.
  induction 1 as [o|o c fl f v p q Ho If Ef R IH]; intros A; [constructor|].
  rewrite (A o (reach_self _ h o)) in Ho. econstructor; try eassumption. apply IH. eapply agree_field; eassumption.
Qed.

(** The other way round if the object holds no object at two places. *)
Theorem C99_copy_compare_back st a b t mst0 :
  (forall c, created c = c) -> well_formed (hp st) -> gmap st = [] ->
  den (copied_fields passes) (hp st) (VObj a) t ->
  (exists x, obj (hp st) b = Some x) -> class_of (hp st) b = class_of (hp st) a ->
  ~ reach (copied_fields passes) (hp st) (VObj a) b ->
  (forall w w' o, at_path (hp st) (VObj a) w o -> at_path (hp st) (VObj a) w' o -> w = w') ->
  sdepth mst0 = 0 -> do_compare b a = true ->
  exists st' mst', copy passes created init (size t) st b a = Ok st' /\
    compare passes false check_type show_max do_compare (size t) (hp st') mst0 b a = Ok (mst', true).
Proof.
  intros HC W G D X E N U S DC.
  assert (P : Pre passes st b a t).
  { split; [exact W|]. split; [exact D|]. split; [exact X|]. split; [exact E|]. split; [exact N|]. rewrite G. intros ? []. }
  destruct (copy_ok passes created init HC (size t) t (le_n _) st b a P) as (st' & E' & G' & W' & N' & A' & D' & R' & org & O).
  exists st'.
  assert (AG : agree (copied_fields passes) (hp st) (hp st') (VObj a)).
  { intros o R. apply A'.
    - destruct (reach_obj _ _ _ _ _ R D) as (x & Ex). exact (W _ _ Ex).
    - intros ->. contradiction. }
  pose proof (den_agree _ _ _ _ _ AG D) as Da.
  destruct (C98_compare passes check_type show_max do_compare (size t) (hp st') mst0 b a t t (le_n _) S) as (m' & r & Em & _ & Q).
  - exact (den_sel _ _ _ _ _ same_fields D').
  - exact (den_sel _ _ _ _ _ same_fields Da).
  - apply same_shape_refl.
  - intros p p' q T T'. apply (together_sel _ _ _ _ _ _ _ (fun c => eq_sym (same_fields c))) in T, T'.
    apply together_path in T, T'. destruct T as (w & T1 & T2). destruct T' as (w' & T1' & T2').
    assert (w = w') by (apply (U w w' q); eapply at_path_agree; eassumption). subst w'.
    exact (at_path_fun _ _ _ _ T1 _ T1').
  - exists m'. split; [exact E'|]. rewrite Em. rewrite (proj2 Q); auto.
Qed.
End C99.
(** Copying the object that holds one object twice: the copy differs from it. *)
Theorem C99_shared_limit :
  gives (clone ex_passes ex_created ex_init 9 (Cst shared_heap [] 0) 0) (fun '(st', b) =>
    answer (ex_compare (hp st') 0 b) = Some true /\ answer (ex_compare (hp st') b 0) = Some false).
Proof. vm_compute. auto. Qed.
Example C99_example :
  gives (copy ex_passes ex_created ex_init 9 (Cst ex_heap [] 0) 2 0) (fun st' =>
    answer (ex_compare ex_heap 0 2) = Some false /\
    answer (ex_compare (hp st') 0 2) = Some true /\ answer (ex_compare (hp st') 2 0) = Some true).
Proof. vm_compute. auto. Qed.
Print Assumptions C99_copy_compare.
Print Assumptions C99_copy_compare_back.
Print Assumptions C99_shared_limit.

(** ** C100: declaring fields in a derived class *)
Inductive chain (y : reg) : nat -> nat -> Prop :=
| chain_self c : chain y c c
| chain_base c b m d : classes y c = Some (Cls (Some b) m) -> chain y b d -> chain y c d.

Lemma owner_field n y c f m e : owner n (declare n y (DField c f m)) e = owner n y e.
Proof.
  cbn [declare]. destruct (owner n y c) as [o|]; [|reflexivity]. destruct (table y o) as [l|] eqn:E; [|reflexivity].
  generalize n as k. intros k. revert e. induction k as [|k IH]; intros e; cbn [owner classes table]; [reflexivity|].
  destruct (Nat.eq_dec e o) as [->|N].
  - rewrite upd_eq, E. reflexivity.
  - rewrite upd_neq by congruence. destruct (table y e); [reflexivity|].
    destruct (classes y e) as [[[b|] mm]|]; [apply IH|reflexivity|reflexivity].
Qed.
(** A field declared in one class does not concern classes whose hierarchy uses other
    tables. *)
Theorem C100_unrelated n y c f m o e k :
  owner n y c = Some o -> (forall d, chain y e d -> owner n y d <> Some o) ->
  passes_of k n (declare n y (DField c f m)) e = passes_of k n y e.
Proof.
  intros Ho. revert e. induction k as [|k IH]; intros e H; [reflexivity|].
  assert (EC : classes (declare n y (DField c f m)) = classes y).
  { cbn [declare]. rewrite Ho. destruct (table y o); reflexivity. }
  cbn [passes_of]. rewrite EC. destruct (classes y e) as [[b mm]|] eqn:Ee; [|reflexivity].
  f_equal.
  - destruct b as [b|]; [|reflexivity]. apply IH. intros d C. apply H. econstructor; eassumption.
  - destruct mm; [|reflexivity]. rewrite owner_field. destruct (owner n y e) as [oe|] eqn:Eoe; [|reflexivity].
    assert (N : oe <> o) by (intros ->; apply (H e (chain_self y e)); exact Eoe).
    cbn [declare]. rewrite Ho. destruct (table y o) as [l|]; [|reflexivity]. cbn [table]. rewrite upd_neq by congruence. reflexivity.
Qed.

(** But a derived class has no tables of its own: its fields become fields of the base
    class, and are processed twice for the derived class. *)
Theorem C100_derived n y b l d f m :
  2 <= n -> b <> d -> classes y b = Some (Cls None true) -> table y b = Some l ->
  table y d = None -> classes y d = None ->
  let y' := declare n (declare n (declare n y (DClass d (Some b))) (DBegin d)) (DField d f m) in
  passes_of n n y' b = [l ++ [(f, m)]] /\
  passes_of n n y' d = [l ++ [(f, m)]; l ++ [(f, m)]].
Proof.
  intros Hn N Cb Tb Td Cd. destruct n as [|[|n]]; [lia|lia|].
  set (y1 := declare (S (S n)) y (DClass d (Some b))).
  assert (C1 : classes y1 d = Some (Cls (Some b) false)) by (cbn; apply upd_eq).
  assert (C1b : classes y1 b = Some (Cls None true)) by (cbn; rewrite upd_neq by congruence; exact Cb).
  assert (T1 : table y1 = table y) by reflexivity.
  assert (O1 : owner (S (S n)) y1 d = Some b) by (cbn [owner]; rewrite T1, Td, C1, Tb; reflexivity).
  set (y2 := declare (S (S n)) y1 (DBegin d)).
  assert (E2 : y2 = Reg (upd (classes y1) d (Some (Cls (Some b) true))) (table y1)).
  { unfold y2. cbn [declare]. rewrite C1, O1. reflexivity. }
  assert (O2 : owner (S (S n)) y2 d = Some b).
  { rewrite E2. cbn [owner table classes]. rewrite T1, Td, upd_eq, Tb. reflexivity. }
  set (y3 := declare (S (S n)) y2 (DField d f m)).
  assert (E3 : y3 = Reg (classes y2) (upd (table y) b (Some (l ++ [(f, m)])))).
  { unfold y3. cbn [declare]. rewrite O2. rewrite E2. cbn [table classes]. rewrite T1, Tb. reflexivity. }
  cbv zeta. fold y1 y2 y3.
  assert (Cb3 : classes y3 b = Some (Cls None true)).
  { rewrite E3, E2. cbn [classes]. rewrite upd_neq by congruence. exact C1b. }
  assert (Cd3 : classes y3 d = Some (Cls (Some b) true)).
  { rewrite E3, E2. cbn [classes]. apply upd_eq. }
  assert (Tb3 : table y3 b = Some (l ++ [(f, m)])) by (rewrite E3; cbn [table]; apply upd_eq).
  assert (Td3 : table y3 d = None) by (rewrite E3; cbn [table]; rewrite upd_neq by congruence; exact Td).
  assert (Ob : forall k, owner (S k) y3 b = Some b) by (intros k; cbn [owner]; rewrite Tb3; reflexivity).
  assert (Od : owner (S (S n)) y3 d = Some b) by (cbn [owner]; rewrite Td3, Cd3, Tb3; reflexivity).
  assert (Pb : forall k, passes_of (S k) (S (S n)) y3 b = [l ++ [(f, m)]]).
  { intros k. cbn [passes_of]. rewrite Cb3, Ob, Tb3. reflexivity. }
  split; [apply Pb|].
  change (passes_of (S (S n)) (S (S n)) y3 d) with
    (match classes y3 d with None => [] | Some (Cls b0 m0) =>
       (match b0 with Some b' => passes_of (S n) (S (S n)) y3 b' | None => [] end) ++
       (if m0 then match owner (S (S n)) y3 d with Some o => match table y3 o with Some l0 => [l0] | None => [] end | None => [] end else []) end).
  rewrite Cd3, Od, Tb3, Pb. reflexivity.
Qed.
(** So copying an instance of the base class fails: it has no such attribute. *)
Theorem C100_base_copy ps created init n st self rhs l f m :
  ps (class_of (hp st) self) = [l ++ [(f, m)]] -> copyable m = true ->
  getattr (hp st) rhs f = None -> self <> rhs ->
  (forall g mg, In (g, mg) l -> forall o, getattr (hp st) rhs g <> Some (VObj o)) ->
  ~ In rhs (gmap st) ->
  copy ps created init (S n) st self rhs = Exn.
Proof.
  intros EP EM EG NS NO NI. cbn [copy].
  assert (NI' : existsb (Nat.eqb rhs) (gmap st) = false).
  { apply not_true_is_false. intros E. apply existsb_exists in E. destruct E as (a & Ia & Ea). apply Nat.eqb_eq in Ea. subst a. contradiction. }
  rewrite NI', EP. cbn [concat]. rewrite app_nil_r. clear EP NI NI'.
  assert (K : forall s g d, (forall x, getattr s rhs x = getattr (hp st) rhs x) ->
    foldr_res (copy_field created init (copy ps created init n) self rhs) (l ++ [(f, m)]) (Cst s g d) = Exn); [|rewrite K; reflexivity].
  induction l as [|[g mg] l IH]; intros s gm d Hs; cbn [app foldr_res].
  - unfold copy_field. cbn [fst snd hp]. rewrite EM, Hs, EG. reflexivity.
  - unfold copy_field at 1. cbn [fst snd hp gmap depth]. destruct (copyable mg); [|apply IH; [intros; eapply NO; right; eassumption|exact Hs]].
    rewrite Hs. assert (IHs : forall v, foldr_res (copy_field created init (copy ps created init n) self rhs) (l ++ [(f, m)]) (Cst (setattr s self g v) gm d) = Exn).
    { intros v. apply IH; [intros; eapply NO; right; eassumption|]. intros x. rewrite <- Hs. unfold getattr, setattr.
      destruct (obj s self) as [[c fl]|]; [|reflexivity]. cbn [obj]. rewrite upd_neq by congruence. reflexivity. }
    destruct (getattr (hp st) rhs g) as [[| | | |o]|] eqn:E; try apply IHs; [|reflexivity].
    exfalso. exact (NO g mg (or_introl eq_refl) o E).
Qed.
Definition ex_reg : reg := declare 9 (declare 9 (declare 9 reg0 (DClass 0 None)) (DBegin 0)) (DField 0 5 UVM_DEFAULT).
Example C100_example :
  passes_of 9 9 ex_reg 0 = [[(5, UVM_DEFAULT)]] /\
  let y' := declare 9 (declare 9 (declare 9 ex_reg (DClass 1 (Some 0))) (DBegin 1)) (DField 1 6 UVM_DEFAULT) in
  passes_of 9 9 y' 0 = [[(5, UVM_DEFAULT); (6, UVM_DEFAULT)]].
Proof. split; vm_compute; reflexivity. Qed.
Example C100_unrelated_example :
  let y := declare 9 (declare 9 ex_reg (DClass 1 None)) (DBegin 1) in
  passes_of 9 9 (declare 9 y (DField 1 6 UVM_DEFAULT)) 0 = passes_of 9 9 y 0.
Proof. vm_compute. reflexivity. Qed.
Print Assumptions C100_unrelated.
Print Assumptions C100_derived.
Print Assumptions C100_base_copy.
