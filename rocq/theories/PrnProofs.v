(** Proofs about the printers. *)
From Coq Require Import List Bool Arith Lia.
From Verif Require Import Prelude ScopeModel PrnModel PrnSpec.
Import ListNotations.
Local Open Scope nat_scope.

Lemma plain_br n : plain n -> starts_br n = false /\ n <> [].
Proof.
  destruct n as [|c n]; cbn; [tauto|]. intros H. split; [|discriminate]. unfold lbr, lpar, lcur.
  destruct (Nat.eqb_spec c 91), (Nat.eqb_spec c 40), (Nat.eqb_spec c 123); cbn; auto; subst; exfalso; apply H; auto.
Qed.
Lemma up_snoc a p n : plain n -> up (Sc a (p ++ [n])) dot = Sc (AStr []) p.
Proof.
  intros H. unfold up. cbn. rewrite rev_app_distr. cbn. destruct (plain_br n H) as [-> _]. cbn. now rewrite rev_involutive.
Qed.
Lemma join_dotted g l : Forall plain l -> join g l = match l with [] => g | _ => g ++ 46 :: dotted l end.
Proof.
  revert g. induction l as [|v l IH]; intros g F; auto. inversion F; subst. cbn [join]. destruct (plain_br v H1) as [-> _]. rewrite IH by auto.
  destruct l as [|w l]; auto. cbn [dotted]. unfold dot. rewrite <- app_assoc. reflexivity.
Qed.
Lemma dotted_cons a l : l <> [] -> dotted (a :: l) = a ++ 46 :: dotted l.
Proof. destruct l; [congruence|reflexivity]. Qed.
Lemma dotted_snoc p n : p <> [] -> dotted (p ++ [n]) = dotted p ++ 46 :: n.
Proof.
  induction p as [|a p IH]; intros H; [congruence|]. destruct p as [|b p]; [reflexivity|].
  change ((a :: b :: p) ++ [n]) with (a :: (b :: p) ++ [n]). rewrite dotted_cons by discriminate. rewrite IH by discriminate.
  rewrite (dotted_cons a (b :: p)) by discriminate. rewrite <- app_assoc. reflexivity.
Qed.
Lemma get_dotted a p n : Forall plain p -> n <> [] -> text (get (set_arg (Sc a p) n)) = dotted (p ++ [n]).
Proof.
  intros F N. destruct n as [|c n]; [congruence|]. cbn [set_arg m_stack]. unfold get. cbn [m_stack m_arg].
  destruct p as [|v p]; [reflexivity|]. inversion F as [|? ? Hv Hp]; subst. rewrite join_dotted by auto. rewrite dotted_snoc by discriminate.
  destruct (plain_br v Hv) as [_ Nv]. destruct v as [|x v]; [congruence|]. destruct p as [|w p]; reflexivity.
Qed.
Lemma set_arg_stack y n : m_stack (set_arg y n) = m_stack y.
Proof. destruct n; reflexivity. Qed.

Fixpoint item_ind' (P : item -> Prop) (Hf : forall n, P (Field n)) (Hd : P Dots) (Ha : forall n es, Forall P es -> P (Arr n es))
  (Hs : forall n o, P (Sub n o)) (Hr : forall n o, P (Ref n o)) (i : item) : P i :=
  match i with
  | Field n => Hf n | Dots => Hd | Sub n o => Hs n o | Ref n o => Hr n o
  | Arr n es => Ha n es ((fix go (l : list item) : Forall P l := match l with [] => Forall_nil P | e :: l => Forall_cons e (item_ind' P Hf Hd Ha Hs Hr e) (go l) end) es)
  end.

Section Print.
Context (adjust : nat -> str -> str) (heap : nat -> obj) (limit : option nat).
Notation OR := (obj_rows adjust heap limit).
Notation KR := (kids_rows adjust heap limit).
Notation IR := (items_rows adjust heap limit).

(** [s'] is [s] with the rows added. *)
Record adds (s : pst) (rs : list row) (s' : pst) : Prop := {
  ad_stack : m_stack (sc s') = m_stack (sc s); ad_arrs : arrs s' = arrs s; ad_cyc : cyc s' = cyc s; ad_rows : rows s' = rows s ++ rs }.
Lemma adds_nil s : adds s [] s.
Proof. constructor; auto. now rewrite app_nil_r. Qed.
Lemma adds_app s a s1 b s2 : adds s a s1 -> adds s1 b s2 -> adds s (a ++ b) s2.
Proof. intros [] []. constructor; try congruence. rewrite ad_rows1, ad_rows0. now rewrite app_assoc. Qed.

Lemma named_adds s n : Forall plain (m_stack (sc s)) -> n <> [] ->
  adds s [shown adjust (m_stack (sc s)) n] (add_row adjust (with_sc s (set_arg (sc s) n)) (text (get (set_arg (sc s) n)))).
Proof.
  intros F N. constructor; cbn; auto using set_arg_stack. f_equal. unfold shown, depth. cbn. rewrite set_arg_stack. do 2 f_equal.
  destruct (sc s) as [a p]. f_equal. now apply get_dotted.
Qed.
Lemma field_adds s n : Forall plain (m_stack (sc s)) -> n <> [] -> adds s [shown adjust (m_stack (sc s)) n] (print_field adjust s n).
Proof. intros F N. destruct n as [|c n]; [congruence|]. apply named_adds; auto. Qed.
Lemma header_adds s n o N : Forall plain (m_stack (sc s)) -> good heap N -> known N o ->
  adds s [shown adjust (m_stack (sc s)) (called heap (m_stack (sc s)) n o)] (print_object_header adjust heap s n o).
Proof.
  intros F G K. assert (E : header_name heap s n o = called heap (m_stack (sc s)) n o).
  { unfold header_name, called, depth. destruct n; auto. destruct o as [v|]; auto. cbn in K. destruct (G v K) as (A & B & _). apply plain_br in A.
    destruct (m_stack (sc s)); cbn; [destruct (o_full (heap v)); tauto|destruct (o_name (heap v)); tauto]. }
  unfold print_object_header. rewrite E. apply named_adds; auto.
  unfold called. destruct n; [|discriminate]. destruct o as [v|]; [|discriminate]. destruct (G v K) as (A & B & _). apply plain_br in A. destruct (m_stack (sc s)); tauto.
Qed.

Section Step.
Context (N : nat) (G : good heap N) (po : str -> option nat -> pst -> option pst) (seen : list nat)
  (PO : forall n o s, Forall plain (m_stack (sc s)) -> cyc s = seen -> (n = [] \/ plain n) -> known N o ->
     exists s' rs, po n o s = Some s' /\ OR (m_stack (sc s)) seen n o rs /\ adds s rs s').
Lemma kids_ok l s : (forall c, In c l -> c < N) -> Forall plain (m_stack (sc s)) -> cyc s = seen ->
  exists s' rs, print_kids heap po l s = Some s' /\ KR (m_stack (sc s)) seen l rs /\ adds s rs s'.
Proof.
  revert s. induction l as [|c l IH]; intros s C F Y; cbn.
  - exists s, []. repeat split; auto using adds_nil; try constructor. now rewrite app_nil_r.
  - destruct (o_enabled (heap c)) eqn:E.
    + destruct (PO [] (Some c) s F Y (or_introl eq_refl)) as (s1 & r1 & E1 & O1 & A1); [apply C; now left|]. rewrite E1.
      destruct (IH s1) as (s2 & r2 & E2 & O2 & A2).
      * intros; apply C; now right.
      * now rewrite (ad_stack _ _ _ A1).
      * now rewrite (ad_cyc _ _ _ A1).
      * exists s2, (r1 ++ r2). split; auto. split; [|eapply adds_app; eauto]. apply kr_cons; auto. now rewrite <- (ad_stack _ _ _ A1).
    + destruct (IH s) as (s2 & r2 & E2 & O2 & A2); auto; [intros; apply C; now right|]. exists s2, r2. split; auto. split; auto. now apply kr_skip.
Qed.
Definition Item (i : item) : Prop := fine N i -> forall s, Forall plain (m_stack (sc s)) -> cyc s = seen ->
  exists s' rs, print_item adjust heap po i s = Some s' /\ IR (m_stack (sc s)) seen [i] rs /\ adds s rs s'.
Lemma ir_snoc p i l ri rl : IR p seen [i] ri -> IR p seen l rl -> IR p seen (i :: l) (ri ++ rl).
Proof.
  intros H K. inversion H; subst; match goal with X : IR p seen [] ?r |- _ => inversion X; subst; clear X end;
    rewrite ?app_nil_r; cbn [app]; try (constructor; auto; fail); try (rewrite app_nil_r in H); cbn.
Qed.
Lemma items_of l : (forall i, In i l -> Item i) -> (forall i, In i l -> fine N i) -> forall s, Forall plain (m_stack (sc s)) -> cyc s = seen ->
  exists s' rs, print_items adjust heap po l s = Some s' /\ IR (m_stack (sc s)) seen l rs /\ adds s rs s'.
Proof.
  induction l as [|i l IH]; intros HI HF s F Y; cbn.
  - exists s, []. repeat split; auto using adds_nil; try constructor. now rewrite app_nil_r.
  - destruct (HI i (or_introl eq_refl) (HF i (or_introl eq_refl)) s F Y) as (s1 & r1 & E1 & O1 & A1). rewrite E1.
    destruct (IH) with (s := s1) as (s2 & r2 & E2 & O2 & A2).
    + intros; apply HI; now right.
    + intros; apply HF; now right.
    + now rewrite (ad_stack _ _ _ A1).
    + now rewrite (ad_cyc _ _ _ A1).
    + exists s2, (r1 ++ r2). split; auto. split; [|eapply adds_app; eauto]. apply ir_snoc; auto. now rewrite <- (ad_stack _ _ _ A1).
Qed.
Lemma item_ok i : Item i.
Proof.
  induction i as [n| |n es IH|n o|n o] using item_ind'; intros FI s F Y.
  - destruct n as [|c n].
    + exists (print_field adjust s []), [Row (length (m_stack (sc s))) (adjust (length (m_stack (sc s))) [])]. split; auto. split; [repeat constructor|].
      constructor; auto.
    + eexists _, [_]. split; [reflexivity|]. split; [|apply field_adds; auto; discriminate]. constructor; [discriminate|constructor].
  - exists (print_dots adjust s), [Row (length (m_stack (sc s))) (adjust (length (m_stack (sc s))) dots)]. split; auto. split; [repeat constructor|].
    constructor; auto.
  - destruct FI as [Pn FI]. assert (FA : forall i, In i es -> fine N i).
    { clear - FI. induction es as [|e es IHe]; intros i I; [contradiction|]. destruct FI as [A B]. destruct I as [<-|I]; auto. }
    clear FI. cbn [print_item]. fold (print_items adjust heap po).
    destruct (plain_br n Pn) as [_ Nn].
    pose proof (named_adds s n F Nn) as A0.
    set (s1 := print_array_header adjust s n).
    assert (S1 : m_stack (sc s1) = m_stack (sc s) ++ [n]) by (cbn; now rewrite set_arg_stack).
    destruct (items_of es) with (s := s1) as (s2 & r2 & E2 & O2 & A2).
    + rewrite Forall_forall in IH. auto.
    + auto.
    + rewrite S1. apply Forall_app. split; auto.
    + exact Y.
    + rewrite E2. exists (print_array_footer s2), (shown adjust (m_stack (sc s)) n :: r2 ++ []). split; auto. split.
      * apply ir_arr; [now rewrite <- S1|constructor].
      * unfold print_array_footer. rewrite (ad_arrs _ _ _ A2). cbn [arrs s1 print_array_header add_row].
        constructor; cbn -[up].
        -- destruct (sc s2) as [a p] eqn:Es. pose proof (ad_stack _ _ _ A2) as K. rewrite Es, S1 in K. cbn in K. subst p. now rewrite up_snoc.
        -- reflexivity.
        -- rewrite (ad_cyc _ _ _ A2). reflexivity.
        -- rewrite (ad_rows _ _ _ A2). pose proof (ad_rows _ _ _ A0) as R. cbn in R. cbn. rewrite R, app_nil_r, <- app_assoc. reflexivity.
  - destruct FI as [Pn K]. destruct (PO n o s F Y Pn K) as (s1 & r1 & E1 & O1 & A1). exists s1, (r1 ++ []). split; auto. split; [apply ir_sub; auto; constructor|]. now rewrite app_nil_r.
  - eexists _, [_]. split; [reflexivity|]. split; [|eapply header_adds; eauto]. constructor. constructor.
Qed.
Lemma items_ok l : (forall i, In i l -> fine N i) -> forall s, Forall plain (m_stack (sc s)) -> cyc s = seen ->
  exists s' rs, print_items adjust heap po l s = Some s' /\ IR (m_stack (sc s)) seen l rs /\ adds s rs s'.
Proof. intros. apply items_of; auto. intros. apply item_ok. Qed.
End Step.

Lemma filter_id v l : ~ In v l -> filter (fun c => negb (Nat.eqb c v)) l = l.
Proof. induction l as [|a l IH]; cbn; intros H; auto. destruct (Nat.eqb_spec a v); [exfalso; auto|]. cbn. rewrite IH; auto. Qed.
Lemma object_ok N : good heap N -> forall fuel seen, NoDup seen -> (forall v, In v seen -> v < N) -> N < fuel + length seen ->
  forall n o s, Forall plain (m_stack (sc s)) -> cyc s = seen -> (n = [] \/ plain n) -> known N o ->
  exists s' rs, print_object adjust heap limit fuel n o s = Some s' /\ OR (m_stack (sc s)) seen n o rs /\ adds s rs s'.
Proof.
  intros G. induction fuel as [|fuel IH]; intros seen ND B L n o s F Y P K.
  - exfalso. cbn in L. assert (length seen <= length (seq 0 N)); [|rewrite seq_length in *; lia].
    apply NoDup_incl_length; auto. intros v I. apply in_seq. apply B in I. lia.
  - cbn [print_object]. pose proof (header_adds s n o N F G K) as A1. set (s1 := print_object_header adjust heap s n o) in *. clearbody s1.
    destruct o as [v|]; [|exists s1; eexists; split; [reflexivity|]; split; [apply or_null|auto]].
    cbn in K. destruct (match limit with None => true | Some d => depth s1 <? d end && negb (existsb (Nat.eqb v) (cyc s1))) eqn:E.
    + apply andb_prop in E. destruct E as [E1 E2]. apply negb_true_iff in E2.
      assert (NI : ~ In v seen).
      { intros I. rewrite (ad_cyc _ _ _ A1), Y in E2. assert (existsb (Nat.eqb v) seen = true); [|congruence]. apply existsb_exists. exists v. split; auto. apply Nat.eqb_refl. }
      assert (AL : allowed limit (m_stack (sc s))).
      { unfold allowed. destruct limit; auto. apply Nat.ltb_lt in E1. unfold depth in E1. now rewrite (ad_stack _ _ _ A1) in E1. }
      destruct (G v K) as (Pv & _ & Kv & Iv).
      set (m := match n with [] => o_name (heap v) | _ => n end).
      assert (Pm : plain m) by (unfold m; destruct n; auto; destruct P; auto; discriminate).
      set (s2 := PSt (down (sc s1) m) (arrs s1) (rows s1) (v :: cyc s1)).
      assert (S2 : m_stack (sc s2) = m_stack (sc s) ++ [m]) by (cbn; now rewrite <- (ad_stack _ _ _ A1)).
      assert (F2 : Forall plain (m_stack (sc s2))) by (rewrite S2; apply Forall_app; auto).
      assert (Y2 : cyc s2 = v :: seen) by (cbn; now rewrite (ad_cyc _ _ _ A1), Y).
      assert (PO : forall n o s, Forall plain (m_stack (sc s)) -> cyc s = v :: seen -> (n = [] \/ plain n) -> known N o ->
         exists s' rs, print_object adjust heap limit fuel n o s = Some s' /\ OR (m_stack (sc s)) (v :: seen) n o rs /\ adds s rs s').
      { apply IH.
        - constructor; auto.
        - intros w [<-|I]; auto.
        - cbn. lia. }
      destruct (kids_ok N _ _ PO (o_kids (heap v)) s2 Kv F2 Y2) as (s3 & rk & E3 & O3 & A3). rewrite E3.
      destruct (items_ok N G _ _ PO (o_items (heap v)) Iv s3) as (s4 & ri & E4 & O4 & A4).
      { now rewrite (ad_stack _ _ _ A3). } { now rewrite (ad_cyc _ _ _ A3). }
      rewrite E4. eexists; exists (shown adjust (m_stack (sc s)) (called heap (m_stack (sc s)) n (Some v)) :: rk ++ ri). split; [reflexivity|].
      pose proof (adds_app _ _ _ _ _ A3 A4) as A5. split.
      * apply or_open; auto; fold m; [now rewrite <- S2|]. rewrite <- S2. now rewrite <- (ad_stack _ _ _ A3).
      * constructor; cbn -[up].
        -- destruct (sc s4) as [a p] eqn:Es. pose proof (ad_stack _ _ _ A5) as Q. rewrite Es, S2 in Q. cbn in Q. subst p. now rewrite up_snoc.
        -- rewrite (ad_arrs _ _ _ A5). cbn. apply (ad_arrs _ _ _ A1).
        -- rewrite (ad_cyc _ _ _ A5), Y2. cbn. rewrite Nat.eqb_refl. cbn. rewrite filter_id by auto. congruence.
        -- rewrite (ad_rows _ _ _ A5). cbn. rewrite (ad_rows _ _ _ A1). now rewrite <- app_assoc.
    + exists s1. eexists. split; [reflexivity|]. split; [|exact A1]. apply or_closed. apply andb_false_iff in E. destruct E as [E|E].
      * right. unfold allowed. destruct limit; [|discriminate]. apply Nat.ltb_ge in E. unfold depth in E. rewrite (ad_stack _ _ _ A1) in E. lia.
      * left. apply negb_false_iff, existsb_exists in E. destruct E as (w & I & E). apply Nat.eqb_eq in E. subst w. now rewrite (ad_cyc _ _ _ A1), Y in I.
Qed.

(** The rows of the specification are determined. *)
Scheme obj_rows_m := Induction for obj_rows Sort Prop
  with kids_rows_m := Induction for kids_rows Sort Prop
  with items_rows_m := Induction for items_rows Sort Prop.
Lemma rows_unique p seen n o r : OR p seen n o r -> forall r', OR p seen n o r' -> r = r'.
Proof.
  revert p seen n o r. apply (obj_rows_m adjust heap limit
    (fun p seen n o r _ => forall r', OR p seen n o r' -> r = r')
    (fun p seen l r _ => forall r', KR p seen l r' -> r = r')
    (fun p seen l r _ => forall r', IR p seen l r' -> r = r')); intros.
  - now inversion H.
  - inversion H; subst; auto. tauto.
  - inversion H1; subst; [tauto|]. f_equal. f_equal; eauto.
  - now inversion H.
  - inversion H0; subst; eauto. congruence.
  - inversion H1; subst; [congruence|]. f_equal; eauto.
  - now inversion H.
  - inversion H0; subst; [|congruence]. f_equal; eauto.
  - inversion H0; subst; [congruence|]. f_equal; eauto.
  - inversion H0; subst. f_equal; eauto.
  - inversion H1; subst. f_equal. f_equal; eauto.
  - inversion H1; subst. f_equal; eauto.
  - inversion H0; subst. f_equal; eauto.
Qed.

(** Levels *)
Fixpoint climb (lo prev : nat) (l : list row) : Prop :=
  match l with [] => True | r :: l => lo <= level r <= S prev /\ climb lo (level r) l end.
Lemma climb_lower lo lo' prev l : lo' <= lo -> climb lo prev l -> climb lo' prev l.
Proof. revert prev. induction l as [|r l IH]; cbn; intros prev H; auto. intros [A B]. split; [lia|auto]. Qed.
Lemma climb_app lo prev a b : lo <= S prev -> climb lo prev a -> (forall q, lo <= S q -> climb lo q b) -> climb lo prev (a ++ b).
Proof. revert prev. induction a as [|r a IH]; cbn; intros prev L; auto. intros [A B] C. split; auto. apply IH; auto. lia. Qed.
Lemma rows_climb p seen n o r : OR p seen n o r -> forall q, length p <= S q ->
  exists x l, r = x :: l /\ level x = length p /\ climb (S (length p)) (length p) l.
Proof.
  revert p seen n o r. apply (obj_rows_m adjust heap limit
    (fun p seen n o r _ => forall q, length p <= S q -> exists x l, r = x :: l /\ level x = length p /\ climb (S (length p)) (length p) l)
    (fun p seen l r _ => forall q, length p <= S q -> climb (length p) q r)
    (fun p seen l r _ => forall q, length p <= S q -> climb (length p) q r)); intros.
  - eexists _, []. cbn. auto.
  - eexists _, []. cbn. auto.
  - eexists _, _. split; [reflexivity|]. split; [reflexivity|]. rewrite app_length in *. cbn [length] in *. rewrite Nat.add_1_r in *. apply climb_app; auto.
  - exact I.
  - auto.
  - apply climb_app; auto. destruct (H q H1) as (x & l0 & -> & A & B). cbn. split; [lia|]. rewrite A. eapply climb_lower; [|exact B]. lia.
  - exact I.
  - cbn. split; [lia|]. apply H. lia.
  - cbn. split; [lia|]. apply H. lia.
  - cbn. split; [lia|]. apply H. lia.
  - cbn. split; [lia|]. apply climb_app; [lia| |auto]. specialize (H (length p)). rewrite app_length, Nat.add_1_r in H. eapply climb_lower; [|apply H]; lia.
  - apply climb_app; auto. destruct (H q H1) as (x & l0 & -> & A & B). cbn. split; [lia|]. rewrite A. eapply climb_lower; [|exact B]. lia.
  - cbn. split; [lia|]. apply H. lia.
Qed.
Lemma climb_climbs lo prev l : climb lo prev l -> climbs prev l.
Proof. revert prev. induction l as [|r l IH]; cbn; intros prev; auto. intros [A B]. split; [lia|auto]. Qed.
Lemma rows_start seen n o r : OR [] seen n o r -> starts r.
Proof. intros H. destruct (rows_climb _ _ _ _ _ H 0) as (x & l & -> & A & B); [cbn; lia|]. cbn in *. split; auto. eapply climb_climbs; eauto. Qed.
End Print.

(** ** Brackets *)
Lemma nested_close k d ts : nested d ts -> nested (k + d) (repeat TClose k ++ ts).
Proof. induction k; cbn; auto. Qed.
Lemma emit_nested r l : climbs (level r) l -> nested (level r) (emit_tree (r :: l)).
Proof.
  revert r. induction l as [|r2 l IH]; intros r C.
  - cbn. split; auto. rewrite <- (Nat.add_0_r (level r)) at 1. rewrite Nat.sub_0_r. apply nested_close. reflexivity.
  - destruct C as [A B]. specialize (IH r2 B). cbn [emit_tree]. cbn [nested]. split; auto. destruct (Nat.ltb_spec (level r) (level r2)) as [E|E].
    + cbn [nested]. replace (S (level r)) with (level r2) by lia. exact IH.
    + cbn [nested]. replace (level r) with ((level r - level r2) + level r2) at 1 by lia. apply nested_close. exact IH.
Qed.
Definition names (ts : list token) : list row := flat_map (fun t => match t with TName r => [r] | _ => [] end) ts.
Lemma names_close k : names (repeat TClose k) = [].
Proof. induction k; cbn; auto. Qed.
Lemma emit_names l : names (emit_tree l) = l.
Proof.
  induction l as [|r l IH]; auto. cbn [emit_tree]. destruct l as [|r2 l].
  - unfold names. cbn. rewrite app_nil_r. f_equal. apply names_close.
  - destruct (level r <? level r2); unfold names in *; cbn [flat_map app]; f_equal; auto. rewrite flat_map_app. rewrite IH. fold (names (repeat TClose (level r - level r2))). now rewrite names_close.
Qed.

(** ** Table *)
Lemma tl_repeat {A} (x : A) n : tl (repeat x n) = repeat x (n - 1).
Proof. destruct n; cbn; auto. now rewrite Nat.sub_0_r. Qed.
Lemma firstn_repeat {A} (x : A) k n : firstn k (repeat x n) = repeat x (Nat.min k n).
Proof. revert n. induction k; intros [|n]; cbn; auto. now rewrite IHk. Qed.
Lemma slice1_repeat x n k : k <= n -> slice1 (repeat x n) k = repeat x (k - 1).
Proof. intros H. unfold slice1. rewrite tl_repeat, firstn_repeat. f_equal. lia. Qed.
Lemma fold_max_ge {A} (f : A -> nat) l b : b <= fold_left (fun m r => Nat.max m (f r)) l b.
Proof. revert b. induction l as [|a l IH]; intros b; cbn; auto. specialize (IH (Nat.max b (f a))). lia. Qed.
Lemma fold_max_in {A} (f : A -> nat) l b r : In r l -> f r <= fold_left (fun m r => Nat.max m (f r)) l b.
Proof.
  revert b. induction l as [|a l IH]; intros b I; [contradiction|]. destruct I as [->|I]; cbn; auto.
  pose proof (fold_max_ge f l (Nat.max b (f r))). lia.
Qed.
Lemma fold_max_le {A} (f : A -> nat) l b c : b <= c -> (forall r, In r l -> f r <= c) -> fold_left (fun m r => Nat.max m (f r)) l b <= c.
Proof. revert b. induction l as [|a l IH]; intros b B H; cbn; auto. apply IH; [|intros; apply H; now right]. specialize (H a (or_introl eq_refl)). lia. Qed.
