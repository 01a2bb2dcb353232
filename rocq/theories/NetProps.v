(** C214, C215, C216: networks of ports. *)
From Coq Require Import ZArith List Bool Arith String Ascii Lia.
From Verif Require Import Prelude PortModel NetModel NetSpec NetProofs.
Import ListNotations.
Local Open Scope list_scope.

Section Props.
Context (nm ty : nat -> string) (kd : nat -> kind) (mask : nat -> Z) (owner par : nat -> option nat) (dec : nat -> string).
Notation wire := (wire ty kd mask owner par).
Notation connect := (connect ty kd mask owner par).

(* connections *)
Lemma land_bits a b : Z.land b a = a <-> forall n, Z.testbit a n = true -> Z.testbit b n = true.
Proof.
  split.
  - intros E n H. rewrite <- E, Z.land_spec in H. now apply andb_true_iff in H.
  - intros H. apply Z.bits_inj. intros n. rewrite Z.land_spec. specialize (H n). destruct (Z.testbit a n), (Z.testbit b n); auto.
Qed.
Lemma error_fits p q : connect_error kd mask p q = None <-> fits kd mask p q.
Proof.
  unfold connect_error, fits. rewrite <- land_bits. destruct (Nat.eqb_spec q p) as [->|N]; [split; [discriminate|]; intros [H _]; congruence|].
  destruct (Z.eqb_spec (Z.land (mask q) (mask p)) (mask p)) as [E|E]; cbn [negb]; [|split; [discriminate|]; intros (_ & H & _); congruence].
  destruct (kd p), (kd q); split; intros H; try discriminate; try (destruct H as (_ & _ & H1 & H2); congruence || (exfalso; apply H2; auto));
    repeat split; auto; try congruence; intros [? ?]; discriminate.
Qed.
Lemma oeq_iff a b : oeq a b = true <-> a = b.
Proof. destruct a, b; cbn; try rewrite Nat.eqb_eq; split; congruence. Qed.
Lemma related_iff p q : fits kd mask p q -> related ty kd owner par p q = true <-> ty p = "uvm_analysis_port"%string \/ at_levels kd owner par p q.
Proof.
  intros (_ & _ & F1 & F2). unfold related, at_levels. destruct (String.eqb_spec (ty p) "uvm_analysis_port") as [E|E]; [tauto|].
  destruct (owner p) as [c|]; [|split; [intros _; right; congruence|auto]]. destruct (owner q) as [d|]; [|split; [intros _; right; congruence|auto]].
  assert (X : forall P : nat -> nat -> Prop, (forall c0 d0, Some c = Some c0 -> Some d = Some d0 -> P c0 d0) <-> P c d).
  { intros P. split; [auto|]. intros H c0 d0 Ec Ed. now inversion Ec; inversion Ed; subst. }
  rewrite X. destruct (kd p), (kd q); try rewrite oeq_iff; try congruence; try (exfalso; apply F2; now auto); split; intros H;
    try (right; repeat split; intros; congruence); destruct H as [H|(H1 & H2 & H3)]; try contradiction; auto; symmetry; auto; apply H3; congruence.
Qed.
Lemma dadd_in l x y : In y (dadd l x) <-> In y l \/ y = x.
Proof.
  unfold dadd. destruct (existsb (Nat.eqb x) l) eqn:E.
  - apply existsb_exists in E as (z & Z1 & Z2). apply Nat.eqb_eq in Z2. subst z. split; [auto|]. intros [H| ->]; auto.
  - rewrite in_app_iff. cbn. intuition congruence.
Qed.
Lemma keep_first_in l x : In x (keep_first l) <-> In x l.
Proof.
  induction l as [|y l IH]; [tauto|]. cbn. rewrite filter_In, IH, negb_true_iff, Nat.eqb_neq. destruct (Nat.eq_dec y x); tauto.
Qed.
Lemma filter_none {A} (f : A -> bool) l : (forall x, In x l -> f x = true) -> filter f l = l.
Proof. induction l as [|x l IH]; intros H; [reflexivity|]. cbn. rewrite (H x) by now left. f_equal. apply IH. intros y Y. apply H. now right. Qed.
Lemma keep_first_snoc l x : keep_first (l ++ [x]) = dadd (keep_first l) x.
Proof.
  induction l as [|y l IH]; [reflexivity|]. cbn. rewrite IH. unfold dadd. cbn [existsb]. destruct (Nat.eqb_spec x y) as [->|N]; cbn [orb].
  - destruct (existsb _ (keep_first l)) eqn:E; [reflexivity|]. rewrite filter_app. cbn. rewrite Nat.eqb_refl. cbn. now rewrite app_nil_r.
  - assert (X : existsb (Nat.eqb x) (filter (fun z => negb (Nat.eqb y z)) (keep_first l)) = existsb (Nat.eqb x) (keep_first l)).
    { apply Bool.eq_iff_eq_true. rewrite !existsb_exists. split; intros (z & Z1 & Z2); exists z; split; auto; [now apply filter_In in Z1|].
      apply filter_In. split; auto. apply Nat.eqb_eq in Z2. subst. apply negb_true_iff, Nat.eqb_neq. auto. }
    rewrite X. destruct (existsb _ (keep_first l)); [reflexivity|]. rewrite filter_app. cbn. destruct (Nat.eqb_spec y x); [congruence|]. reflexivity.
Qed.
Lemma wire_snoc ls c : fst (wire (ls ++ [c])) = fst (connect (fst (wire ls)) (fst c) (snd c)).
Proof.
  unfold NetModel.wire. rewrite run_machine_app. destruct (run_machine _ _ ls) as [s o]. cbn. unfold nstep. destruct (connect s (fst c) (snd c)); reflexivity.
Qed.
Lemma wire_in ls : forall p q, (In q (by_ (fst (wire ls)) p) <-> In (p, q) ls /\ fits kd mask p q) /\ (In p (to_ (fst (wire ls)) q) <-> In (p, q) ls /\ fits kd mask p q).
Proof.
  induction ls as [|[p0 q0] ls IH] using rev_ind; [cbn; tauto|]. intros p q. specialize (IH p q). rewrite wire_snoc, in_app_iff. cbn [fst snd In].
  unfold NetModel.connect. pose proof (error_fits p0 q0) as Ef. destruct (connect_error kd mask p0 q0) as [e|]; cbn [fst].
  - destruct IH as [-> ->]. assert (N : ~ fits kd mask p0 q0) by (intros H; apply Ef in H; discriminate). split; split; intros [H1 H2]; split; auto;
    destruct H1 as [H1|[H1|[]]]; auto; injection H1 as <- <-; contradiction.
  - assert (F : fits kd mask p0 q0) by now apply Ef. cbn [by_ to_]. destruct IH as [I1 I2]. split.
    + destruct (Nat.eq_dec p p0) as [->|N].
      * rewrite upd_eq, dadd_in, I1. split; [intros [[H1 H2]| ->]; auto|]. intros [[H|[H|[]]] H2]; [auto|right; congruence].
      * rewrite upd_neq, I1 by auto. split; intros [H1 H2]; split; auto. destruct H1 as [H1|[H1|[]]]; auto. congruence.
    + destruct (Nat.eq_dec q q0) as [->|N].
      * rewrite upd_eq, dadd_in, I2. split; [intros [[H1 H2]| ->]; auto|]. intros [[H|[H|[]]] H2]; [auto|right; congruence].
      * rewrite upd_neq, I2 by auto. split; intros [H1 H2]; split; auto. destruct H1 as [H1|[H1|[]]]; auto. congruence.
Qed.

(** C216: get_connected_to lists the providers of the possible connections, get_provided_to the
    ports they were made from, each in the order in which it was first connected. *)
Theorem C216_lists ls ok : (forall p q, ok (p, q) = true <-> fits kd mask p q) -> forall p,
  get_connected_to (fst (wire ls)) p = keep_first (map snd (filter (fun c => Nat.eqb (fst c) p && ok c) ls)) /\
  get_provided_to (fst (wire ls)) p = keep_first (map fst (filter (fun c => Nat.eqb (snd c) p && ok c) ls)).
Proof.
  intros OK. unfold get_connected_to, get_provided_to. induction ls as [|[p0 q0] ls IH] using rev_ind; intros p; [split; reflexivity|].
  rewrite wire_snoc, !filter_app, !map_app. cbn [filter fst snd]. unfold NetModel.connect. pose proof (error_fits p0 q0) as Ef. specialize (OK p0 q0).
  destruct (connect_error kd mask p0 q0) as [e|]; cbn [fst].
  - assert (ok (p0, q0) = false) as -> by (destruct (ok (p0, q0)); auto; destruct OK as [OK _]; specialize (OK eq_refl); apply Ef in OK; discriminate).
    rewrite !andb_false_r. cbn. rewrite !app_nil_r. apply IH.
  - assert (ok (p0, q0) = true) as -> by (apply OK, Ef; reflexivity). rewrite !andb_true_r. cbn [by_ to_]. destruct (IH p) as [I1 I2]. split.
    + destruct (Nat.eqb_spec p0 p) as [->|N]; [rewrite upd_eq; cbn; rewrite keep_first_snoc; now rewrite I1|]. rewrite upd_neq by auto. cbn. now rewrite app_nil_r.
    + destruct (Nat.eqb_spec q0 p) as [->|N]; [rewrite upd_eq; cbn; rewrite keep_first_snoc; now rewrite I2|]. rewrite upd_neq by auto. cbn. now rewrite app_nil_r.
Qed.
(** The messages of one call: an error if and only if nothing is connected; a warning if and only
    if the connection is possible but not at the levels it belongs. *)
Theorem C216_messages ls p q : let s := fst (wire ls) in
  let '(s', notes) := connect s p q in
  (fits kd mask p q -> (ty p = "uvm_analysis_port"%string \/ at_levels kd owner par p q) -> notes = []) /\
  (fits kd mask p q -> ty p <> "uvm_analysis_port"%string -> ~ at_levels kd owner par p q -> notes = [NWarn]) /\
  (fits kd mask p q -> In q (get_connected_to s' p) /\ In p (get_provided_to s' q)) /\
  (~ fits kd mask p q -> s' = s /\ exists e, notes = [NErr e]).
Proof.
  cbn zeta. unfold NetModel.connect. pose proof (error_fits p q) as Ef. destruct (connect_error kd mask p q) as [e|].
  - assert (N : ~ fits kd mask p q) by (intros H; apply Ef in H; discriminate). repeat split; try contradiction. eauto.
  - assert (F : fits kd mask p q) by now apply Ef. pose proof (related_iff p q F) as R. repeat split; try contradiction.
    + intros _ H. apply R in H. now rewrite H.
    + intros _ H1 H2. destruct (related ty kd owner par p q); auto. destruct R as [R _]. destruct (R eq_refl); contradiction.
    + unfold get_connected_to. cbn. rewrite upd_eq. apply dadd_in. now right.
    + unfold get_provided_to. cbn. rewrite upd_eq. apply dadd_in. now right.
Qed.

(** C215: what is found by following providers is found by following back, in as many steps. *)
Theorem C215_dual ls p q n : let s := fst (wire ls) in
  (exists a, leads (get_connected_to s) p a q /\ List.length a = n) <-> (exists b, leads (get_provided_to s) q b p /\ List.length b = n).
Proof.
  cbn zeta. assert (G : forall g h : nat -> list nat, (forall x y, In y (g x) -> In x (h y)) -> forall a p q, leads g p a q -> exists b, leads h q b p /\ List.length b = List.length a).
  { intros g h H a. induction a as [|i a IH]; intros x y L; inversion L; subst; [exists []; split; [constructor|reflexivity]|].
    match goal with E : nth_error _ _ = Some _ |- _ => apply nth_error_In, H in E; apply In_nth_error in E as [j J] end.
    destruct (IH c y) as (b & B1 & B2); auto. exists (b ++ [j]). split; [eapply leads_app; [exact B1|]; econstructor; [exact J|constructor]|].
    rewrite app_length, B2. cbn. lia. }
  split; intros (a & L & <-).
  - eapply G; [|exact L]. intros x y I. apply (proj2 (wire_in ls x y)). now apply (proj1 (wire_in ls x y)) in I.
  - eapply G; [|exact L]. intros x y I. apply (proj1 (wire_in ls y x)). now apply (proj2 (wire_in ls y x)) in I.
Qed.

(* texts *)
Lemma named_row i c : row nm ty i c = line nm ty i c.
Proof. reflexivity. Qed.
Lemma text_ext f f' g p i l t i' : (forall i q, f i q = f' i q) -> text f g p i l t i' -> text f' g p i l t i'.
Proof. intros E. induction 1; [constructor|rewrite E; now apply t_bar|rewrite E; now apply t_gap]. Qed.
Lemma rows_empty g p i l t i' : text (line nm ty) g p i l t i' -> t = ""%string <-> l = [].
Proof.
  assert (X : forall i q u, String.append (line nm ty i q) u <> ""%string) by (intros i0 q u; destruct i0; discriminate).
  destruct 1; split; intros E; try reflexivity; try discriminate; now apply X in E.
Qed.
Lemma listing_ext g p a b l : (forall n, a n <-> b n) -> listing g p a l -> listing g p b l.
Proof. intros E [H1 H2]. split; auto. intros x. rewrite H2, E. tauto. Qed.
Lemma imp_rows_eq i n l : imp_rows nm ty dec i n l = String.concat "" (map (fun x => numbered nm ty dec i (fst x) (snd x)) (combine (seq n (List.length l)) l)).
Proof.
  revert n. induction l as [|x l IH]; intros n; [reflexivity|]. cbn [imp_rows List.length seq combine map]. rewrite IH.
  unfold numbered, named. cbn [fst snd]. destruct (map _ _) eqn:E; cbn [String.concat]; rewrite ?sapp_nil, ?sapp_assoc; reflexivity.
Qed.
Definition fan (max : Z) : option nat := if (max =? -1)%Z then None else Some (Z.to_nat max).
Lemma fan_agrees max : (max = -1 \/ 0 <= max)%Z -> agrees (fun level => negb (max =? -1)%Z && (max <=? level)%Z) 0 (fan max).
Proof.
  intros H k K. unfold fan. destruct (Z.eqb_spec max (-1)); [reflexivity|]. cbn. apply Bool.eq_iff_eq_true. rewrite !Z.leb_le. lia.
Qed.
Definition fan2 (max : Z) : option nat := if (max =? -1)%Z then None else Some (S (Z.to_nat max)).
Lemma fan2_agrees max : (max = -1 \/ 0 <= max)%Z -> agrees (fun level => negb (max =? -1)%Z && (max <? level)%Z) 0 (fan2 max).
Proof.
  intros H k K. unfold fan2. destruct (Z.eqb_spec max (-1)); [reflexivity|]. cbn [negb andb]. apply Bool.eq_iff_eq_true. rewrite Z.ltb_lt, Z.leb_le. lia.
Qed.
Lemma allow_fan max n : (max = -1 \/ 0 <= max)%Z -> allow (fan max) n <-> (max = -1 \/ Z.of_nat n <= max)%Z.
Proof. intros H. unfold fan. destruct (Z.eqb_spec max (-1)); cbn; [tauto|]. lia. Qed.
Lemma allow_fan2 max n : (max = -1 \/ 0 <= max)%Z -> allow (fan2 max) n <-> (max = -1 \/ Z.of_nat n <= max + 1)%Z.
Proof. intros H. unfold fan2. destruct (Z.eqb_spec max (-1)); cbn [allow]; [tauto|]. lia. Qed.

(** C214: the text of debug_connected_to *)
Theorem C214_text fuel s imps p max r : debug_connected_to nm ty dec fuel s imps p max = Some r ->
  (r = None <-> max = 0%Z \/ (max < -1)%Z) /\
  forall t, r = Some t -> exists l rows i,
    listing (get_connected_to s) p (fun n => max = -1 \/ Z.of_nat n <= max)%Z l /\
    text (line nm ty) (get_connected_to s) p "    " l rows i /\
    t = String.append (under nm ty "This port's fanout network:" p l rows)
          match imps with
          | [] => ""
          | _ => String.append "    Resolved implementation list:" (String.append newline
                   (String.concat "" (map (fun x => numbered nm ty dec i (fst x) (snd x)) (combine (seq 0 (List.length imps)) imps))))
          end%string.
Proof.
  unfold debug_connected_to. cbv zeta. set (stop := fun level : Z => _).
  change (negb (max =? -1)%Z && (max <=? 0)%Z) with (stop 0%Z). intros H.
  assert (Z : stop 0%Z = true <-> max = 0%Z \/ (max < -1)%Z) by (unfold stop; rewrite andb_true_iff, negb_true_iff, Z.eqb_neq, Z.leb_le; lia).
  destruct (stop 0%Z).
  { injection H as <-. split; [split; auto; intros _; now apply Z|discriminate]. }
  assert (M : (max = -1 \/ 0 <= max)%Z). { destruct (Z.eq_dec max (-1)); auto. destruct (Z_le_gt_dec 0 max); auto. assert (false = true) by (apply Z; lia). discriminate. }
  destruct (walk nm ty fuel stop (by_ s) 0 p _) as [[save i]|] eqn:W; [|discriminate]. injection H as <-.
  split; [split; [discriminate|intros H; apply Z in H; discriminate]|]. intros t E. injection E as <-.
  destruct (walk_text nm ty (by_ s) stop fuel (fan max) 0 p _ _ _ _ p [] (fan_agrees max M) (l_here _ _) W) as (l & rows & L & T & Es). cbn in Es. subst save.
  change (map (app []) l) with (map (fun x => x) l) in T. rewrite map_id in T. exists l, rows, i. split; [|split].
  - eapply listing_ext; [|exact L]. intros n. now apply allow_fan.
  - exact T.
  - pose proof (rows_empty _ _ _ _ _ _ T) as R. f_equal.
    + destruct (String.eqb_spec rows "") as [E|E]; [rewrite E; apply R in E; subst; reflexivity|]. destruct l; [destruct E; now apply R|].
      unfold under, named. rewrite !sapp_assoc. reflexivity.
    + destruct imps as [|x imps]; [reflexivity|]. rewrite imp_rows_eq. reflexivity.
Qed.
(** It ends if and only if a limit is given or there is no endless path; a network of connections
    in a circle makes the call without a limit fail. *)
Theorem C214_ends s imps p max :
  (exists fuel r, debug_connected_to nm ty dec fuel s imps p max = Some r) <->
  (max <> -1)%Z \/ exists n, forall a q, leads (get_connected_to s) p a q -> List.length a <= n.
Proof.
  unfold debug_connected_to. cbv zeta. set (stop := fun level : Z => _).
  change (negb (max =? -1)%Z && (max <=? 0)%Z) with (stop 0%Z).
  assert (Z : stop 0%Z = true <-> max = 0%Z \/ (max < -1)%Z) by (unfold stop; rewrite andb_true_iff, negb_true_iff, Z.eqb_neq, Z.leb_le; lia).
  destruct (stop 0%Z); [split; [left; destruct Z as [Z _]; specialize (Z eq_refl); lia|intros _; exists 0, None; reflexivity]|].
  assert (M : (max = -1 \/ 0 <= max)%Z). { destruct (Z.eq_dec max (-1)); auto. destruct (Z_le_gt_dec 0 max); auto. assert (false = true) by (apply Z; lia). discriminate. }
  pose proof (fan_agrees max M) as A. fold stop in A. split.
  - intros (fuel & r & H). destruct (Z.eq_dec max (-1)) as [Em|]; [right|now left]. destruct (walk nm ty fuel stop (by_ s) 0 p _) as [st'|] eqn:W; [|discriminate].
    exists fuel. intros a q L. pose proof (walk_bound nm ty (by_ s) stop fuel (fan max) 0 p _ _ A W a q L) as B. rewrite Em in B. cbn in B. specialize (B I). lia.
  - intros H. assert (B : exists n, forall a q, leads (by_ s) p a q -> allow (fan max) (List.length a) -> List.length a < n).
    { destruct (Z.eq_dec max (-1)) as [Em|Nm].
      - destruct H as [H|[n H]]; [contradiction|]. exists (S n). intros a q L _. specialize (H a q L). lia.
      - exists (S (Z.to_nat max)). intros a q _ X. apply allow_fan in X; auto. lia. }
    destruct B as [n B]. destruct (walk_total nm ty (by_ s) stop n (fan max) 0 p (""%string, "    "%string) A B) as [[save i] W].
    exists n. rewrite W. eauto.
Qed.

(** C215: the text of debug_provided_to; the limit counts one step more *)
Theorem C215_text fuel s p max r : debug_provided_to nm ty fuel s p max = Some r ->
  (r = None <-> (max < -1)%Z) /\
  forall t, r = Some t -> exists l rows i,
    listing (get_provided_to s) p (fun n => max = -1 \/ Z.of_nat n <= max + 1)%Z l /\
    text (line nm ty) (get_provided_to s) p "    " l rows i /\
    t = match l with
        | [] => String.append "    This port has not been bound" newline
        | _ => under nm ty "This port's fanin network:" p l rows
        end.
Proof.
  unfold debug_provided_to. cbv zeta. set (stop := fun level : Z => _).
  change (negb (max =? -1)%Z && (max <? 0)%Z) with (stop 0%Z). intros H.
  assert (Z : stop 0%Z = true <-> (max < -1)%Z) by (unfold stop; rewrite andb_true_iff, negb_true_iff, Z.eqb_neq, Z.ltb_lt; lia).
  destruct (stop 0%Z).
  { injection H as <-. split; [split; auto; intros _; now apply Z|discriminate]. }
  assert (M : (max = -1 \/ 0 <= max)%Z). { destruct (Z.eq_dec max (-1)); auto. destruct (Z_le_gt_dec 0 max); auto. assert (false = true) by (apply Z; lia). discriminate. }
  destruct (walk nm ty fuel stop (to_ s) 0 p _) as [[save i]|] eqn:W; [|discriminate]. injection H as <-.
  split; [split; [discriminate|intros H; apply Z in H; discriminate]|]. intros t E. injection E as <-.
  destruct (walk_text nm ty (to_ s) stop fuel (fan2 max) 0 p _ _ _ _ p [] (fan2_agrees max M) (l_here _ _) W) as (l & rows & L & T & Es). cbn in Es. subst save.
  change (map (app []) l) with (map (fun x => x) l) in T. rewrite map_id in T. exists l, rows, i. split; [|split].
  - eapply listing_ext; [|exact L]. intros n. now apply allow_fan2.
  - exact T.
  - pose proof (rows_empty _ _ _ _ _ _ T) as R. destruct (to_ s p) as [|x xs] eqn:Et.
    + assert (l = []) as ->. { destruct l as [|a l]; auto. destruct (proj1 (proj2 L a)) as (N & _ & q & X); [now left|]. inversion X; subst; [congruence|]. rewrite Et in *. destruct i0; discriminate. }
      assert (rows = ""%string) as -> by now apply R. inversion T; subst. reflexivity.
    + assert (I : In [0] l). { apply (proj2 L). split; [discriminate|]. split; [apply allow_fan2; auto; cbn; lia|]. exists x. econstructor; [rewrite Et; reflexivity|constructor]. }
      destruct l as [|a l]; [destruct I|]. destruct (String.eqb_spec rows "") as [E|E]; [apply R in E; discriminate|].
      rewrite sapp_nil. unfold under, named. rewrite !sapp_assoc. reflexivity.
Qed.
Theorem C215_ends s p max :
  (exists fuel r, debug_provided_to nm ty fuel s p max = Some r) <->
  (max <> -1)%Z \/ exists n, forall a q, leads (get_provided_to s) p a q -> List.length a <= n.
Proof.
  unfold debug_provided_to. cbv zeta. set (stop := fun level : Z => _).
  change (negb (max =? -1)%Z && (max <? 0)%Z) with (stop 0%Z).
  assert (Z : stop 0%Z = true <-> (max < -1)%Z) by (unfold stop; rewrite andb_true_iff, negb_true_iff, Z.eqb_neq, Z.ltb_lt; lia).
  destruct (stop 0%Z); [split; [left; destruct Z as [Z _]; specialize (Z eq_refl); lia|intros _; exists 0, None; reflexivity]|].
  assert (M : (max = -1 \/ 0 <= max)%Z). { destruct (Z.eq_dec max (-1)); auto. destruct (Z_le_gt_dec 0 max); auto. assert (false = true) by (apply Z; lia). discriminate. }
  pose proof (fan2_agrees max M) as A. fold stop in A. split.
  - intros (fuel & r & H). destruct (Z.eq_dec max (-1)) as [Em|]; [right|now left]. destruct (walk nm ty fuel stop (to_ s) 0 p _) as [st'|] eqn:W; [|discriminate].
    exists fuel. intros a q L. pose proof (walk_bound nm ty (to_ s) stop fuel (fan2 max) 0 p _ _ A W a q L) as B. rewrite Em in B. cbn in B. specialize (B I). lia.
  - intros H. assert (B : exists n, forall a q, leads (to_ s) p a q -> allow (fan2 max) (List.length a) -> List.length a < n).
    { destruct (Z.eq_dec max (-1)) as [Em|Nm].
      - destruct H as [H|[n H]]; [contradiction|]. exists (S n). intros a q L _. specialize (H a q L). lia.
      - exists (S (S (Z.to_nat max))). intros a q _ X. apply allow_fan2 in X; auto. lia. }
    destruct B as [n B]. destruct (walk_total nm ty (to_ s) stop n (fan2 max) 0 p (""%string, "    "%string) A B) as [[save i] W].
    exists n. rewrite W. eauto.
Qed.
End Props.
Print Assumptions C214_text.
Print Assumptions C214_ends.
Print Assumptions C215_text.
Print Assumptions C215_ends.
Print Assumptions C215_dual.
Print Assumptions C216_lists.
Print Assumptions C216_messages.

(* Component 1 with child 2 that has child 3; port 0 is of 3, port 1 of 2, export 2 of component 4 (child of 1), imp 3 of 5 (child of 4). *)
Definition exnm (n : nat) : string := nth n ["p0"; "p1"; "e2"; "i3"]%string ""%string.
Definition exkd (n : nat) : kind := nth n [KPort; KPort; KExport; KImp] KImp.
Definition exowner (n : nat) : option nat := Some (nth n [3; 2; 4; 5] 0).
Definition expar (n : nat) : option nat := nth n [None; None; Some 1; Some 2; Some 1; Some 4] None.
Definition exwire := wire (fun _ => "T"%string) exkd (fun _ => 1%Z) exowner expar.
Example C214_example : let s := fst (exwire [(0, 1); (1, 2); (2, 3); (0, 3)]) in
  debug_connected_to exnm (fun _ => "T"%string) (fun _ => "#"%string) 4 s [3] 0 (-1) =
    Some (Some (String.concat newline ["This port's fanout network:"; ""; "    p0 (T)";
      "        | "; "        |_p1 (T)"; "        |     | "; "        |     |_e2 (T)"; "        |             | "; "        |             |_i3 (T)";
      "        |                     | "; "        |                     |_i3 (T)"; ""; "    Resolved implementation list:"; "        |                         #: i3 (T)"; ""])%string) /\
  debug_connected_to exnm (fun _ => "T"%string) (fun _ => "#"%string) 4 s [] 0 1 =
    Some (Some (String.concat newline ["This port's fanout network:"; ""; "    p0 (T)";
      "        | "; "        |_p1 (T)"; "        |     | "; "        |     |_i3 (T)"; ""; ""])%string) /\
  debug_connected_to exnm (fun _ => "T"%string) (fun _ => "#"%string) 4 s [3] 0 0 = Some None.
Proof. vm_compute. repeat split. Qed.
(** Two ports connected to each other *)
Example C214_limit : let s := fst (exwire [(0, 1); (1, 0)]) in
  get_connected_to s 0 = [1] /\ get_connected_to s 1 = [0] /\ ~ exists n, forall a q, leads (get_connected_to s) 0 a q -> List.length a <= n.
Proof.
  split; [reflexivity|]. split; [reflexivity|]. intros [n H].
  assert (G : forall m p, p < 2 -> exists q, leads (get_connected_to (fst (exwire [(0, 1); (1, 0)]))) p (repeat 0 m) q).
  { induction m as [|m IH]; intros p L; [exists p; constructor|]. destruct (IH (1 - p)) as [q Q]; [lia|]. exists q. cbn [repeat]. econstructor; [|exact Q].
    destruct p as [|[|p]]; [reflexivity|reflexivity|lia]. }
  destruct (G (S n) 0) as [q Q]; [lia|]. specialize (H _ _ Q). rewrite repeat_length in H. lia.
Qed.
Example C215_example : let s := fst (exwire [(0, 1); (1, 2); (2, 3); (0, 3)]) in
  debug_provided_to exnm (fun _ => "T"%string) 4 s 3 0 =
    Some (Some (String.concat newline ["This port's fanin network:"; ""; "    i3 (T)"; "        | "; "        |_e2 (T)"; "        |     | "; "        |     |_p0 (T)"; ""; ""])%string) /\
  debug_provided_to exnm (fun _ => "T"%string) 4 s 0 (-1) = Some (Some (String.append "    This port has not been bound" newline)).
Proof. vm_compute. repeat split. Qed.
Example C216_example :
  snd (exwire [(0, 1); (1, 2); (2, 3)]) = [] /\ snd (exwire [(0, 3)]) = [NWarn] /\ snd (exwire [(2, 1)]) = [NErr CExportPort] /\
  get_connected_to (fst (exwire [(0, 3); (0, 1); (0, 3)])) 0 = [3; 1].
Proof. vm_compute. repeat split. Qed.
Print Assumptions C214_example.
