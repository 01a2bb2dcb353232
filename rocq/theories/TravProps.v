(** C65: walks over the component tree. *)
From Coq Require Import ZArith List Bool Arith Lia.
From Verif Require Import TravModel.
Import ListNotations.
Local Open Scope nat_scope.

(** ** Specification: trees and their orders. *)
Inductive tree := Tr (c : nat) (ks : list tree).
Definition root (t : tree) : nat := let '(Tr c _) := t in c.
Fixpoint preorder (t : tree) : list nat := let '(Tr c ks) := t in c :: flat_map preorder ks.
Fixpoint postorder (t : tree) : list nat := let '(Tr c ks) := t in flat_map postorder ks ++ [c].
(** The tree read off a children table. *)
Fixpoint shape (k : nat -> list nat) (t : tree) : Prop :=
  let '(Tr c ks) := t in k c = map root ks /\ (fix all l := match l with [] => True | t :: l => shape k t /\ all l end) ks.
(** a is above d in the tree. *)
Fixpoint above (t : tree) (a d : nat) : Prop :=
  let '(Tr c ks) := t in (a = c /\ exists u, In u ks /\ In d (preorder u)) \/ (fix any l := match l with [] => False | t :: l => above t a d \/ any l end) ks.
(** x comes before y in l. *)
Definition before {A} (l : list A) (x y : A) : Prop := exists l1 l2 l3, l = l1 ++ x :: l2 ++ y :: l3.

(** ** Proofs *)
Lemma tree_ind2 (P : tree -> Prop) : (forall c ks, Forall P ks -> P (Tr c ks)) -> forall t, P t.
Proof.
  intros H. fix IH 1. intros [c ks]. apply H. induction ks as [|t ks IHk]; constructor; auto.
Qed.
Lemma shape_eq k c ks : shape k (Tr c ks) <-> k c = map root ks /\ Forall (shape k) ks.
Proof.
  cbn [shape]. set (all := fix all l := match l with [] => True | t :: l => shape k t /\ all l end).
  assert (G : all ks <-> Forall (shape k) ks).
  { induction ks as [|t ks IH]; cbn; [split; auto|]. fold all. rewrite IH. split.
    - intros [H1 H2]. now constructor.
    - intros H. now inversion H. }
  now rewrite G.
Qed.
Lemma above_eq c ks a d : above (Tr c ks) a d <-> (a = c /\ exists u, In u ks /\ In d (preorder u)) \/ exists u, In u ks /\ above u a d.
Proof.
  cbn [above]. set (any := fix any l := match l with [] => False | t :: l => above t a d \/ any l end).
  assert (G : any ks <-> exists u, In u ks /\ above u a d).
  { induction ks as [|t ks IH]; cbn; [split; [intros []|intros (u & [] & _)]|]. fold any. rewrite IH. split.
    - intros [H|(u & H1 & H2)]; [exists t|exists u]; auto.
    - intros (u & [->|H1] & H2); [now left|right; exists u; auto]. }
  now rewrite G.
Qed.
Lemma root_in t : In (root t) (preorder t).
Proof. destruct t. now left. Qed.
Lemma above_in t : forall a d, above t a d -> In a (preorder t) /\ In d (preorder t).
Proof.
  induction t as [c ks IH] using tree_ind2. intros a d H. apply above_eq in H. rewrite Forall_forall in IH. cbn. rewrite !in_flat_map.
  destruct H as [(-> & u & H1 & H2)|(u & H1 & H2)].
  - split; [now left|right; eauto].
  - apply IH in H2; [|exact H1]. split; right; exists u; tauto.
Qed.
Lemma before_cons {A} (x y : A) l : In y l -> before (x :: l) x y.
Proof. intros H. apply in_split in H as (l1 & l2 & ->). now exists [], l1, l2. Qed.
Lemma before_app_l {A} (x y : A) l m : before l x y -> before (l ++ m) x y.
Proof. intros (l1 & l2 & l3 & ->). exists l1, l2, (l3 ++ m). repeat (cbn; rewrite <- ?app_assoc). reflexivity. Qed.
Lemma before_app_r {A} (x y : A) l m : before m x y -> before (l ++ m) x y.
Proof. intros (l1 & l2 & l3 & ->). exists (l ++ l1), l2, l3. now rewrite <- app_assoc. Qed.
Lemma before_flat {A B} (f : B -> list A) u l x y : In u l -> before (f u) x y -> before (flat_map f l) x y.
Proof.
  intros H. apply in_split in H as (l1 & l2 & ->). intros Hb. rewrite flat_map_app. apply before_app_r. cbn. now apply before_app_l.
Qed.
Lemma pre_above t : forall a d, above t a d -> before (preorder t) a d.
Proof.
  induction t as [c ks IH] using tree_ind2. intros a d H. apply above_eq in H. rewrite Forall_forall in IH. cbn.
  destruct H as [(-> & u & H1 & H2)|(u & H1 & H2)].
  - apply before_cons. apply in_flat_map. eauto.
  - change (c :: flat_map preorder ks) with ([c] ++ flat_map preorder ks). apply before_app_r. eapply before_flat; eauto.
Qed.
Lemma post_in t x : In x (postorder t) <-> In x (preorder t).
Proof.
  induction t as [c ks IH] using tree_ind2. cbn. rewrite in_app_iff, !in_flat_map. rewrite Forall_forall in IH. cbn. split.
  - intros [(u & H1 & H2)|[H|[]]]; [right; exists u; split; auto; now apply IH|auto].
  - intros [H|(u & H1 & H2)]; [auto|left; exists u; split; auto; now apply IH].
Qed.
Lemma post_above t : forall a d, above t a d -> before (postorder t) d a.
Proof.
  induction t as [c ks IH] using tree_ind2. intros a d H. apply above_eq in H. rewrite Forall_forall in IH. cbn.
  destruct H as [(-> & u & H1 & H2)|(u & H1 & H2)].
  - assert (In d (flat_map postorder ks)) as Hd by (apply in_flat_map; exists u; split; [exact H1|now apply post_in]).
    apply in_split in Hd as (l1 & l2 & ->). exists l1, l2, []. now rewrite <- app_assoc.
  - apply before_app_l. eapply before_flat; eauto.
Qed.
Lemma post_count t x : count_occ Nat.eq_dec (postorder t) x = count_occ Nat.eq_dec (preorder t) x.
Proof.
  induction t as [c ks IH] using tree_ind2. cbn [postorder preorder]. rewrite count_occ_app. cbn.
  assert (count_occ Nat.eq_dec (flat_map postorder ks) x = count_occ Nat.eq_dec (flat_map preorder ks) x) as ->.
  { induction IH as [|t ks Ht _ IHk]; [reflexivity|]. cbn. now rewrite !count_occ_app, Ht, IHk. }
  destruct (Nat.eq_dec c x); lia.
Qed.

Section W.
Context (adds : nat -> list nat) (touch : nat -> list (nat * Z)) (dom : nat -> bool).
Notation act := (act adds touch).
Notation topdown := (topdown adds touch dom).
Notation bottomup := (bottomup adds touch dom).

Lemma fold_setp l : forall s, kids (fold_left (fun s e => setp s (fst e) (snd e)) l s) = kids s /\
  forall x, (forall z, ~ In (x, z) l) -> ptr (fold_left (fun s e => setp s (fst e) (snd e)) l s) x = ptr s x.
Proof.
  induction l as [|[y z] l IH]; intros s; [auto|]. cbn [fold_left fst snd]. destruct (IH (setp s y z)) as [H1 H2]. split; [exact H1|].
  intros x Hx. rewrite H2; [|intros w Hw; apply (Hx w); now right]. cbn. destruct (Nat.eqb_spec y x) as [->|]; [|reflexivity].
  exfalso. apply (Hx z). now left.
Qed.
Lemma act_kids s c x : kids (act s c) x = if Nat.eqb c x then kids s x ++ adds c else kids s x.
Proof. unfold TravModel.act. destruct (fold_setp (touch c) (TreeSt (fun x => if Nat.eqb c x then kids s x ++ adds c else kids s x) (ptr s))) as [-> _]. reflexivity. Qed.
Lemma act_ptr s c x : (forall z, ~ In (x, z) (touch c)) -> ptr (act s c) x = ptr s x.
Proof. intros H. unfold TravModel.act. destruct (fold_setp (touch c) (TreeSt (fun x => if Nat.eqb c x then kids s x ++ adds c else kids s x) (ptr s))) as [_ ->]; auto. Qed.

(** More fuel does not change a result. *)
Lemma topdown_more f : forall g s j r, f <= g -> topdown f s j = Some r -> topdown g s j = Some r.
Proof.
  induction f as [|f IH]; intros [|g] s j r Hle H; try discriminate H; [lia|]. assert (f <= g) as Hle' by lia.
  destruct j as [c|c [ch|]]; cbn [TravModel.topdown] in *; [| |exact H].
  - destruct (call adds touch dom s c) as [s1 v]. destruct (has_first_child s1 c); [|exact H]. destruct (get_first_child s1 c) as [s2 ch].
    destruct (topdown f s2 (Loop c ch)) eqn:E; [|discriminate H]. rewrite (IH g _ _ _ Hle' E). exact H.
  - destruct (topdown f s (Visit ch)) as [[s1 v]|] eqn:E1; [|discriminate H]. rewrite (IH g _ _ _ Hle' E1).
    destruct (get_next_child s1 c) as [s2 nx]. destruct (topdown f s2 (Loop c nx)) eqn:E2; [|discriminate H]. rewrite (IH g _ _ _ Hle' E2). exact H.
Qed.
Lemma bottomup_more f : forall g s j r, f <= g -> bottomup f s j = Some r -> bottomup g s j = Some r.
Proof.
  induction f as [|f IH]; intros [|g] s j r Hle H; try discriminate H; [lia|]. assert (f <= g) as Hle' by lia.
  destruct j as [c|c [ch|]]; cbn [TravModel.bottomup] in *; [| |exact H].
  - destruct (has_first_child s c); [|exact H]. destruct (get_first_child s c) as [s2 ch].
    destruct (bottomup f s2 (Loop c ch)) eqn:E; [|discriminate H]. rewrite (IH g _ _ _ Hle' E). exact H.
  - destruct (bottomup f s (Visit ch)) as [[s1 v]|] eqn:E1; [|discriminate H]. rewrite (IH g _ _ _ Hle' E1).
    destruct (get_next_child s1 c) as [s2 nx]. destruct (bottomup f s2 (Loop c nx)) eqn:E2; [|discriminate H]. rewrite (IH g _ _ _ Hle' E2). exact H.
Qed.

Definition grown (k : nat -> list nat) (x : nat) : list nat := if dom x then k x ++ adds x else k x.
(** No callback moves the iterator of a component above it. *)
Definition polite (anc : list nat) (t : tree) : Prop :=
  (forall c x z, In c (preorder t) -> dom c = true -> In (x, z) (touch c) -> ~ In x anc /\ ~ above t x c).
Lemma polite_kid anc c ks u : polite anc (Tr c ks) -> In u ks -> ~ In c (flat_map preorder ks) -> NoDup (flat_map preorder ks) -> polite (c :: anc) u.
Proof.
  intros Hp Hu Hc Hnd d x z Hd Hdom Hz. destruct (Hp d x z) as [H1 H2]; auto.
  - cbn. right. apply in_flat_map. eauto.
  - split.
    + intros [<-|H]; [|contradiction]. apply H2. apply above_eq. left. eauto.
    + intros H. apply H2. apply above_eq. right. eauto.
Qed.

Lemma call_facts s c anc : (forall x z, dom c = true -> In (x, z) (touch c) -> ~ In x anc) ->
  (forall x, kids (fst (call adds touch dom s c)) x = if Nat.eqb c x then grown (kids s) x else kids s x) /\
  (forall x, In x anc -> ptr (fst (call adds touch dom s c)) x = ptr s x) /\
  snd (call adds touch dom s c) = filter dom [c].
Proof.
  intros H. unfold call, grown. cbn [filter]. destruct (dom c) eqn:E; cbn [fst snd].
  - split; [|split; auto].
    + intros x. rewrite act_kids. destruct (Nat.eqb_spec c x) as [->|]; [now rewrite E|reflexivity].
    + intros x Hx. apply act_ptr. intros z Hz. now apply (H x z).
  - split; [|auto]. intros x. destruct (Nat.eqb_spec c x) as [->|]; [now rewrite E|reflexivity].
Qed.
Lemma next_at s c pre v rest : kids s c = pre ++ v :: rest -> ptr s c = Z.of_nat (length pre) ->
  get_next_child s c = (setp s c (Z.of_nat (length (pre ++ [v]))), hd_error rest).
Proof.
  intros Hk Hp. unfold get_next_child. rewrite Hk, Hp, !app_length. cbn [length].
  replace (Z.of_nat (length pre) + 1)%Z with (Z.of_nat (length pre + 1)) by lia.
  destruct (Z.ltb_spec (Z.of_nat (length pre + 1)) (Z.of_nat (length pre + S (length rest)))) as [E|E].
  - destruct (Z.ltb_spec (Z.of_nat (length pre + 1)) 0); [lia|]. rewrite Nat2Z.id. f_equal.
    rewrite nth_error_app2 by lia. replace (length pre + 1 - length pre) with 1 by lia. destruct rest; reflexivity.
  - destruct rest; [reflexivity|cbn in E; lia].
Qed.
Lemma nodup_app {A} (l m : list A) : NoDup (l ++ m) -> NoDup l /\ NoDup m /\ forall x, In x l -> ~ In x m.
Proof.
  induction l as [|a l IH]; cbn; intros H; [repeat split; auto; constructor|]. inversion H as [|? ? Ha Hn]; subst.
  destruct (IH Hn) as (H1 & H2 & H3). rewrite in_app_iff in Ha. repeat split; auto; [constructor; tauto|].
  intros x [<-|Hx]; [tauto|auto].
Qed.

Definition done_td (t : tree) (s s' : tree_st) (anc : list nat) : Prop :=
  (forall x, In x (preorder t) -> kids s' x = grown (kids s) x) /\
  (forall x, ~ In x (preorder t) -> kids s' x = kids s x) /\
  (forall x, In x anc -> ptr s' x = ptr s x).
Lemma topdown_tree t : forall anc s, shape (grown (kids s)) t -> NoDup (preorder t) -> polite anc t -> (forall x, In x anc -> ~ In x (preorder t)) ->
  exists fuel s', topdown fuel s (Visit (root t)) = Some (s', filter dom (preorder t)) /\ done_td t s s' anc.
Proof.
  induction t as [c ks IH] using tree_ind2. intros anc s Hsh Hnd Hpol Hanc.
  apply shape_eq in Hsh as [Hc Hks]. cbn [root preorder] in *. inversion Hnd as [|? ? Hcn Hnd']; subst.
  assert (Hcall : forall x z, dom c = true -> In (x, z) (touch c) -> ~ In x anc).
  { intros x z Hd Hz. apply (Hpol c x z); auto. now left. }
  destruct (call_facts s c anc Hcall) as (K1 & K2 & K3).
  destruct (call adds touch dom s c) as [s1 v0] eqn:Ecall. cbn [fst snd] in *. subst v0.
  assert (Hk1 : kids s1 c = map root ks) by (rewrite K1, Nat.eqb_refl; exact Hc).
  assert (Hflat : forall x, In x (flat_map preorder ks) -> x <> c) by (intros x Hx ->; contradiction).
  destruct ks as [|t0 ks0].
  { exists 1, s1. cbn [TravModel.topdown]. rewrite Ecall. unfold has_first_child. rewrite Hk1. cbn [map flat_map].
    split; [reflexivity|]. unfold done_td. cbn. repeat split; auto.
    - intros x [<-|[]]. rewrite K1, Nat.eqb_refl. reflexivity.
    - intros x Hx. rewrite K1. destruct (Nat.eqb_spec c x); [tauto|reflexivity]. }
  set (ks := t0 :: ks0) in *.
  (* the loop *)
  assert (loop : forall done rest s2, ks = done ++ rest ->
    kids s2 c = map root ks -> ptr s2 c = Z.of_nat (length done) ->
    (forall x, In x (flat_map preorder done) -> kids s2 x = grown (kids s) x) ->
    (forall x, x <> c -> ~ In x (flat_map preorder done) -> kids s2 x = kids s x) ->
    (forall x, In x anc -> ptr s2 x = ptr s x) ->
    exists fuel s', topdown fuel s2 (Loop c (hd_error (map root rest))) = Some (s', filter dom (flat_map preorder rest)) /\
      (forall x, In x (flat_map preorder ks) -> kids s' x = grown (kids s) x) /\
      kids s' c = map root ks /\
      (forall x, x <> c -> ~ In x (flat_map preorder ks) -> kids s' x = kids s x) /\
      (forall x, In x anc -> ptr s' x = ptr s x)).
  { intros done rest. revert done. induction rest as [|u rest IHr]; intros done s2 Ek H1 H2 H3 H4 H5.
    - rewrite app_nil_r in Ek. rewrite <- Ek in *. exists 1, s2. cbn. auto 10.
    - assert (Hu : In u ks) by (rewrite Ek, in_app_iff; right; now left).
      assert (Hsub : forall x, In x (preorder u) -> In x (flat_map preorder ks)) by (intros x Hx; apply in_flat_map; eauto).
      assert (Hdisj : NoDup (preorder u) /\ (forall x, In x (preorder u) -> ~ In x (flat_map preorder done))).
      { rewrite Ek, flat_map_app in Hnd'. apply nodup_app in Hnd' as (_ & N2 & N3). cbn in N2, N3. apply nodup_app in N2 as (N4 & _ & _).
        split; [exact N4|]. intros x Hx Hd. apply (N3 x Hd). apply in_or_app. now left. }
      destruct Hdisj as [Hndu Hdisj].
      rewrite Forall_forall in IH. destruct (IH u Hu (c :: anc) s2) as (f1 & s3 & E3 & D1 & D2 & D3).
      + rewrite Forall_forall in Hks. specialize (Hks u Hu).
        assert (Hext : forall t', (forall x, In x (preorder t') -> In x (preorder u)) -> shape (grown (kids s)) t' -> shape (grown (kids s2)) t').
        { induction t' as [d kd IHt] using tree_ind2. intros Hin Hs. apply shape_eq in Hs as [S1 S2]. apply shape_eq. split.
          - rewrite <- S1. unfold grown. rewrite (H4 d); [reflexivity| |apply Hdisj, Hin; now left].
            apply Hflat, Hsub, Hin. now left.
          - rewrite Forall_forall in *. intros w Hw. apply IHt; [exact Hw| |now apply S2].
            intros x Hx. apply Hin. cbn. right. apply in_flat_map. eauto. }
        now apply Hext.
      + exact Hndu.
      + eapply polite_kid; eauto.
      + intros x [<-|Hx] Hi; [now apply Hcn, Hsub|]. apply (Hanc x Hx). right. now apply Hsub.
      + assert (Hnext : get_next_child s3 c = (setp s3 c (Z.of_nat (length (done ++ [u]))), hd_error (map root rest))).
        { replace (length (done ++ [u])) with (length (map root done ++ [root u])) by (rewrite !app_length, map_length; reflexivity).
          apply (next_at s3 c (map root done) (root u) (map root rest)).
          - rewrite D2 by (intros Hi; now apply Hcn, Hsub). rewrite H1, Ek, map_app. reflexivity.
          - rewrite D3 by now left. now rewrite map_length. }
        destruct (IHr (done ++ [u]) (setp s3 c (Z.of_nat (length (done ++ [u]))))) as (f2 & s4 & E4 & R).
        * now rewrite Ek, <- app_assoc.
        * cbn [kids setp]. rewrite D2 by (intros Hi; now apply Hcn, Hsub). exact H1.
        * cbn. now rewrite Nat.eqb_refl.
        * intros x Hx. cbn [kids setp]. rewrite flat_map_app, in_app_iff in Hx. cbn in Hx. rewrite app_nil_r in Hx. destruct Hx as [Hx|Hx].
          -- rewrite D2; [now apply H3|]. intros Hi. now apply (Hdisj x Hi).
          -- rewrite D1 by exact Hx. unfold grown. rewrite H4; [reflexivity| |now apply Hdisj]. now apply Hflat, Hsub.
        * intros x Hx Hn. cbn [kids setp]. rewrite flat_map_app, in_app_iff in Hn. cbn in Hn. rewrite app_nil_r in Hn.
          rewrite D2 by tauto. apply H4; tauto.
        * intros x Hx. cbn [ptr setp]. destruct (Nat.eqb_spec c x) as [<-|Hne]; [exfalso; apply (Hanc c Hx); now left|].
          rewrite D3 by now right. now apply H5.
        * exists (S (Nat.max f1 f2)), s4. split; [|exact R]. cbn [map hd_error flat_map TravModel.topdown].
          rewrite (topdown_more f1 (Nat.max f1 f2) _ _ _ ltac:(lia) E3), Hnext.
          rewrite (topdown_more f2 (Nat.max f1 f2) _ _ _ ltac:(lia) E4). now rewrite filter_app. }
  destruct (loop [] ks (setp s1 c 0)) as (f & s' & E & L1 & L2 & L3 & L4).
  - reflexivity.
  - exact Hk1.
  - cbn. now rewrite Nat.eqb_refl.
  - intros x [].
  - intros x Hx _. cbn [kids setp]. rewrite K1. destruct (Nat.eqb_spec c x); congruence.
  - intros x Hx. cbn [ptr setp]. destruct (Nat.eqb_spec c x) as [<-|Hne]; [exfalso; apply (Hanc c Hx); now left|now apply K2].
  - exists (S f), s'. split.
    + cbn [TravModel.topdown]. rewrite Ecall. unfold has_first_child, get_first_child. rewrite Hk1. unfold ks at 1. cbn [map].
      change (root t0 :: map root ks0) with (map root ks). rewrite E. f_equal. f_equal. cbn [filter]. now destruct (dom c).
    + split; [|split].
      * intros x [<-|Hx]; [|now apply L1]. now rewrite L2.
      * intros x Hx. apply L3; [intros ->; apply Hx; now left|]. intros Hi. apply Hx. now right.
      * exact L4.
Qed.

(** Bottom-up walks do not add components. *)
Context (no_adds : forall c, adds c = []).
Lemma act_kids0 s c x : kids (act s c) x = kids s x.
Proof. rewrite act_kids, no_adds, app_nil_r. now destruct (Nat.eqb c x). Qed.
Lemma call0 s c : (forall x, kids (fst (call adds touch dom s c)) x = kids s x) /\ snd (call adds touch dom s c) = filter dom [c].
Proof. unfold call. cbn [filter]. destruct (dom c); cbn; split; auto. intros x. apply act_kids0. Qed.
Lemma bottomup_tree t : forall anc s, shape (kids s) t -> NoDup (preorder t) -> polite anc t -> (forall x, In x anc -> ~ In x (preorder t)) ->
  exists fuel s', bottomup fuel s (Visit (root t)) = Some (s', filter dom (postorder t)) /\
    (forall x, kids s' x = kids s x) /\ (forall x, In x anc -> ptr s' x = ptr s x).
Proof.
  induction t as [c ks IH] using tree_ind2. intros anc s Hsh Hnd Hpol Hanc.
  apply shape_eq in Hsh as [Hc Hks]. cbn [root preorder postorder] in *. inversion Hnd as [|? ? Hcn Hnd']; subst.
  assert (Hcall : forall x z, dom c = true -> In (x, z) (touch c) -> ~ In x anc).
  { intros x z Hd Hz. apply (Hpol c x z); auto. now left. }
  assert (Hend : forall s1, (forall x, kids s1 x = kids s x) -> (forall x, In x anc -> ptr s1 x = ptr s x) ->
    exists s2, call adds touch dom s1 c = (s2, filter dom [c]) /\ (forall x, kids s2 x = kids s x) /\ (forall x, In x anc -> ptr s2 x = ptr s x)).
  { intros s1 H1 H2. destruct (call_facts s1 c anc Hcall) as (_ & K2 & K3). destruct (call0 s1 c) as [K1 _].
    destruct (call adds touch dom s1 c) as [s2 v]. cbn [fst snd] in *. subst v. exists s2. split; [reflexivity|].
    split; [intros x; now rewrite K1|]. intros x Hx. rewrite K2 by exact Hx. now apply H2. }
  destruct ks as [|t0 ks0].
  { destruct (Hend s) as (s2 & E & H1 & H2); auto. exists 1, s2. cbn [TravModel.bottomup]. unfold has_first_child. rewrite Hc. cbn [map flat_map]. rewrite E.
    split; [reflexivity|]. auto. }
  set (ks := t0 :: ks0) in *.
  assert (loop : forall done rest s2, ks = done ++ rest ->
    (forall x, kids s2 x = kids s x) -> ptr s2 c = Z.of_nat (length done) -> (forall x, In x anc -> ptr s2 x = ptr s x) ->
    exists fuel s', bottomup fuel s2 (Loop c (hd_error (map root rest))) = Some (s', filter dom (flat_map postorder rest)) /\
      (forall x, kids s' x = kids s x) /\ (forall x, In x anc -> ptr s' x = ptr s x)).
  { intros done rest. revert done. induction rest as [|u rest IHr]; intros done s2 Ek H1 H2 H3.
    - exists 1, s2. cbn. auto.
    - assert (Hu : In u ks) by (rewrite Ek, in_app_iff; right; now left).
      assert (Hsub : forall x, In x (preorder u) -> In x (flat_map preorder ks)) by (intros x Hx; apply in_flat_map; eauto).
      assert (Hndu : NoDup (preorder u)).
      { rewrite Ek, flat_map_app in Hnd'. apply nodup_app in Hnd' as (_ & N2 & _). cbn in N2. now apply nodup_app in N2 as (N4 & _ & _). }
      rewrite Forall_forall in IH. destruct (IH u Hu (c :: anc) s2) as (f1 & s3 & E3 & D1 & D2).
      + rewrite Forall_forall in Hks. specialize (Hks u Hu). clear - Hks H1. revert Hks. induction u as [d kd IHt] using tree_ind2. intros Hs.
        apply shape_eq in Hs as [S1 S2]. apply shape_eq. split; [now rewrite H1|]. rewrite Forall_forall in *. intros w Hw. now apply IHt, S2.
      + exact Hndu.
      + eapply polite_kid; eauto.
      + intros x [<-|Hx] Hi; [now apply Hcn, Hsub|]. apply (Hanc x Hx). right. now apply Hsub.
      + assert (Hnext : get_next_child s3 c = (setp s3 c (Z.of_nat (length (done ++ [u]))), hd_error (map root rest))).
        { replace (length (done ++ [u])) with (length (map root done ++ [root u])) by (rewrite !app_length, map_length; reflexivity).
          apply (next_at s3 c (map root done) (root u) (map root rest)).
          - rewrite D1, H1, Hc, Ek, map_app. reflexivity.
          - rewrite D2 by now left. now rewrite map_length. }
        destruct (IHr (done ++ [u]) (setp s3 c (Z.of_nat (length (done ++ [u]))))) as (f2 & s4 & E4 & R).
        * now rewrite Ek, <- app_assoc.
        * intros x. cbn [kids setp]. now rewrite D1.
        * cbn. now rewrite Nat.eqb_refl.
        * intros x Hx. cbn [ptr setp]. destruct (Nat.eqb_spec c x) as [<-|Hne]; [exfalso; apply (Hanc c Hx); now left|].
          rewrite D2 by now right. now apply H3.
        * exists (S (Nat.max f1 f2)), s4. split; [|exact R]. cbn [map hd_error flat_map TravModel.bottomup].
          rewrite (bottomup_more f1 (Nat.max f1 f2) _ _ _ ltac:(lia) E3), Hnext.
          rewrite (bottomup_more f2 (Nat.max f1 f2) _ _ _ ltac:(lia) E4). now rewrite filter_app. }
  destruct (loop [] ks (setp s c 0)) as (f & s' & E & L1 & L2).
  - reflexivity.
  - reflexivity.
  - cbn. now rewrite Nat.eqb_refl.
  - intros x Hx. cbn [ptr setp]. destruct (Nat.eqb_spec c x) as [<-|Hne]; [exfalso; apply (Hanc c Hx); now left|reflexivity].
  - destruct (Hend s' L1 L2) as (s2 & Ec & C1 & C2). exists (S f), s2. split; [|auto].
    cbn [TravModel.bottomup]. unfold has_first_child, get_first_child. rewrite Hc. unfold ks at 1. cbn [map].
    change (root t0 :: map root ks0) with (map root ks). rewrite E, Ec, filter_app. reflexivity.
Qed.
(** The walk of task phases uses its own list of children, so callbacks may do anything to
    the iterators. *)
Definition height_list (h : tree -> nat) (l : list tree) : nat := fold_right (fun t n => Nat.max (h t) n) 0 l.
Fixpoint height (t : tree) : nat := let '(Tr _ ks) := t in S (fold_right (fun t n => Nat.max (height t) n) 0 ks).
Lemma task_tree t : forall s fuel, shape (kids s) t -> height t <= fuel ->
  exists s', task_walk adds touch dom fuel s (root t) = Some (s', filter dom (postorder t)) /\ (forall x, kids s' x = kids s x).
Proof.
  induction t as [c ks IH] using tree_ind2. intros s fuel Hsh Hf. apply shape_eq in Hsh as [Hc Hks]. cbn [root postorder].
  destruct fuel as [|fuel]; [cbn in Hf; lia|]. cbn [task_walk]. rewrite Hc.
  match goal with |- context [?F (map root ks) s] => set (go := F) end.
  assert (G : forall l s1, Forall (fun t => forall s fuel, shape (kids s) t -> height t <= fuel ->
        exists s', task_walk adds touch dom fuel s (root t) = Some (s', filter dom (postorder t)) /\ (forall x, kids s' x = kids s x)) l ->
      Forall (shape (kids s)) l -> height_list height l <= fuel -> (forall x, kids s1 x = kids s x) ->
      exists s2, go (map root l) s1 = Some (s2, filter dom (flat_map postorder l)) /\ (forall x, kids s2 x = kids s x)).
  { induction l as [|u l IHl]; intros s1 Hi Hsl Hh Hk; [exists s1; auto|]. inversion Hi as [|? ? Hu Hl]; inversion Hsl as [|? ? Su Sl]; subst. cbn in Hh.
    destruct (Hu s1 fuel) as (s2 & E2 & K2); [|lia|].
    { clear - Su Hk. revert Su. induction u as [d kd IHt] using tree_ind2. intros Hs. apply shape_eq in Hs as [S1 S2]. apply shape_eq. split; [now rewrite Hk|].
      rewrite Forall_forall in *. intros w Hw. now apply IHt, S2. }
    destruct (IHl s2 Hl Sl) as (s3 & E3 & K3); [fold (height_list height l) in Hh; lia|intros x; now rewrite K2|].
    exists s3. split; [|exact K3]. cbn [map]. unfold go. fold go. rewrite E2, E3. cbn [flat_map]. now rewrite filter_app. }
  destruct (G ks s) as (s2 & E & K); auto; [cbn in Hf; unfold height_list; lia|]. rewrite E.
  destruct (call0 s2 c) as [C1 C2]. destruct (call adds touch dom s2 c) as [s3 v]. cbn [fst snd] in *. subst v.
  exists s3. rewrite filter_app. split; [reflexivity|]. intros x. now rewrite C1.
Qed.
End W.

(** ** C65 *)
(** A top-down phase, such as build: [k] are the children before the phase, [adds c] those
    created by the callback of c; the walk calls the components of the resulting tree, each
    exactly once and parents before children (of those, the ones in the phase's domain). *)
Theorem C65_topdown adds touch (dom : nat -> bool) s t :
  shape (fun c => if dom c then kids s c ++ adds c else kids s c) t -> NoDup (preorder t) ->
  (forall c x z, dom c = true -> In (x, z) (touch c) -> ~ above t x c) ->
  exists fuel s' called, topdown adds touch dom fuel s (Visit (root t)) = Some (s', called) /\
    (forall x, count_occ Nat.eq_dec called x = if in_dec Nat.eq_dec x (preorder t) then if dom x then 1 else 0 else 0) /\
    (forall a d, above t a d -> dom a = true -> dom d = true -> before called a d).
Proof.
  intros Hs Hnd Hp. destruct (topdown_tree adds touch dom t [] s) as (f & s' & E & _); auto.
  - intros c x z Hc Hd Hz. split; [intros []|eauto].
  - exists f, s', (filter dom (preorder t)). split; [exact E|]. split.
    + intros x. assert (G : forall l, NoDup l -> count_occ Nat.eq_dec (filter dom l) x = if in_dec Nat.eq_dec x l then if dom x then 1 else 0 else 0).
      { induction l as [|y l IH]; intros Hl; [reflexivity|]. inversion Hl as [|? ? Hy Hl']; subst. specialize (IH Hl'). cbn [filter].
        destruct (in_dec Nat.eq_dec x (y :: l)) as [Hi|Hi], (in_dec Nat.eq_dec x l) as [Hj|Hj].
        - assert (y <> x) by (intros ->; contradiction). destruct (dom y); [cbn; destruct (Nat.eq_dec y x); congruence|exact IH].
        - destruct Hi as [->|Hi]; [|contradiction]. destruct (dom x); [cbn; destruct (Nat.eq_dec x x); congruence|exact IH].
        - exfalso. apply Hi. now right.
        - assert (y <> x) by (intros ->; apply Hi; now left). destruct (dom y); [cbn; destruct (Nat.eq_dec y x); congruence|exact IH]. }
      now apply G.
    + intros a d Ha Hda Hdd. apply pre_above in Ha as (l1 & l2 & l3 & ->).
      exists (filter dom l1), (filter dom l2), (filter dom l3). rewrite !filter_app. cbn. rewrite Hda, filter_app. cbn. now rewrite Hdd.
Qed.
Lemma count_filter dom l x : NoDup l -> count_occ Nat.eq_dec (filter dom l) x = if in_dec Nat.eq_dec x l then if dom x then 1 else 0 else 0.
Proof.
  induction l as [|y l IH]; intros Hl; [reflexivity|]. inversion Hl as [|? ? Hy Hl']; subst. specialize (IH Hl'). cbn [filter].
  destruct (in_dec Nat.eq_dec x (y :: l)) as [Hi|Hi], (in_dec Nat.eq_dec x l) as [Hj|Hj].
  - assert (y <> x) by (intros ->; contradiction). destruct (dom y); [cbn; destruct (Nat.eq_dec y x); congruence|exact IH].
  - destruct Hi as [->|Hi]; [|contradiction]. destruct (dom x); [cbn; destruct (Nat.eq_dec x x); congruence|exact IH].
  - exfalso. apply Hi. now right.
  - assert (y <> x) by (intros ->; apply Hi; now left). destruct (dom y); [cbn; destruct (Nat.eq_dec y x); congruence|exact IH].
Qed.
Lemma post_spec dom t : NoDup (preorder t) ->
  (forall x, count_occ Nat.eq_dec (filter dom (postorder t)) x = if in_dec Nat.eq_dec x (preorder t) then if dom x then 1 else 0 else 0) /\
  (forall a d, above t a d -> dom a = true -> dom d = true -> before (filter dom (postorder t)) d a).
Proof.
  intros Hnd. split.
  - assert (Hnp : NoDup (postorder t)).
    { apply (NoDup_count_occ Nat.eq_dec). intros x. rewrite post_count. revert x. now apply NoDup_count_occ. }
    intros x. rewrite count_filter by exact Hnp. destruct (in_dec Nat.eq_dec x (postorder t)) as [H|H], (in_dec Nat.eq_dec x (preorder t)) as [H'|H']; auto;
      exfalso; rewrite post_in in H; contradiction.
  - intros a d Ha Hda Hdd. apply post_above in Ha as (l1 & l2 & l3 & ->).
    exists (filter dom l1), (filter dom l2), (filter dom l3). rewrite !filter_app. cbn. rewrite Hdd, filter_app. cbn. now rewrite Hda.
Qed.
(** A bottom-up phase: children before parents. *)
Theorem C65_bottomup touch dom s t : shape (kids s) t -> NoDup (preorder t) ->
  (forall c x z, dom c = true -> In (x, z) (touch c) -> ~ above t x c) ->
  exists fuel s' called, bottomup (fun _ => []) touch dom fuel s (Visit (root t)) = Some (s', called) /\
    (forall x, count_occ Nat.eq_dec called x = if in_dec Nat.eq_dec x (preorder t) then if dom x then 1 else 0 else 0) /\
    (forall a d, above t a d -> dom a = true -> dom d = true -> before called d a).
Proof.
  intros Hs Hnd Hp. destruct (bottomup_tree (fun _ => []) touch dom (fun _ => eq_refl) t [] s) as (f & s' & E & _); auto.
  - intros c x z Hc Hd Hz. split; [intros []|eauto].
  - exists f, s', (filter dom (postorder t)). split; [exact E|]. now apply post_spec.
Qed.
(** A task phase, whatever the callbacks do to the iterators. *)
Theorem C65_task touch dom s t : shape (kids s) t -> NoDup (preorder t) ->
  exists fuel s' called, task_walk (fun _ => []) touch dom fuel s (root t) = Some (s', called) /\
    (forall x, count_occ Nat.eq_dec called x = if in_dec Nat.eq_dec x (preorder t) then if dom x then 1 else 0 else 0) /\
    (forall a d, above t a d -> dom a = true -> dom d = true -> before called d a).
Proof.
  intros Hs Hnd. destruct (task_tree (fun _ => []) touch dom (fun _ => eq_refl) t s (height t) Hs (le_n _)) as (s' & E & _).
  exists (height t), s', (filter dom (postorder t)). split; [exact E|]. now apply post_spec.
Qed.
(** ** C105: the child iterator *)
(** The usual loop: get_first_child, then get_next_child until there is none. *)
Fixpoint collect (fuel : nat) (s : tree_st) (c : nat) (cur : option nat) : option (list nat) :=
  match fuel, cur with
  | O, _ => None
  | _, None => Some []
  | S k, Some x => let (s1, nx) := get_next_child s c in option_map (cons x) (collect k s1 c nx)
  end.
(** Alone, it gives every child exactly once, in the order of creation. *)
Theorem C105_alone s c : let (s1, first) := get_first_child s c in collect (S (length (kids s c))) s1 c first = Some (kids s c).
Proof.
  unfold get_first_child.
  assert (G : forall rest done s1, kids s1 c = done ++ rest -> ptr s1 c = Z.of_nat (length done) -> collect (S (length rest)) s1 c (hd_error rest) = Some rest).
  { induction rest as [|x rest IH]; intros done s1 Hk Hp; [reflexivity|]. cbn [hd_error length]. remember (S (length rest)) as n. cbn [collect].
    rewrite (next_at s1 c done x rest Hk Hp). subst n. rewrite (IH (done ++ [x])); [reflexivity| |].
    - cbn [kids setp]. rewrite Hk. now rewrite <- app_assoc.
    - cbn. now rewrite Nat.eqb_refl. }
  apply (G (kids s c) []); [reflexivity|]. cbn. now rewrite Nat.eqb_refl.
Qed.
(** If the callback of a child walks over its parent's children with get_first_child, the
    walk of a bottom-up phase never ends: component 0 with children 1 and 2, where the
    callback of 2 calls get_first_child on its parent. *)
Theorem C105_nested_limit : forall fuel,
  bottomup (fun _ => []) (fun c => match c with 2 => [(0, 0%Z)] | _ => [] end) (fun _ => true) fuel
    (TreeSt (fun c => match c with 0 => [1; 2] | _ => [] end) (fun _ => (-1)%Z)) (Visit 0) = None.
Proof.
  set (tc := fun c : nat => match c return list (nat * Z) with 2 => [(0, 0%Z)] | _ => [] end). set (kd := fun c : nat => match c return list nat with 0 => [1; 2] | _ => [] end).
  assert (G : forall f s, (forall x, kids s x = kd x) ->
    (ptr s 0 = 0%Z -> bottomup (fun _ => []) tc (fun _ => true) f s (Loop 0 (Some 1)) = None) /\ bottomup (fun _ => []) tc (fun _ => true) f s (Loop 0 (Some 2)) = None).
  { induction f as [f IH] using lt_wf_ind. intros s Hk. destruct f as [|f]; [split; reflexivity|]. split.
    - intros Hp. cbn [bottomup]. destruct f as [|f]; [reflexivity|].
      assert (E1 : bottomup (fun _ => []) tc (fun _ => true) (S f) s (Visit 1) = Some (act (fun _ => []) tc s 1, [1])).
      { cbn [bottomup]. unfold has_first_child. rewrite Hk. reflexivity. }
      rewrite E1. unfold get_next_child. cbn [act fold_left tc kids ptr]. cbn [Nat.eqb]. rewrite Hp, Hk. cbn [kd length].
      change (0 + 1)%Z with 1%Z. change (1 <? Z.of_nat 2)%Z with true. change (1 <? 0)%Z with false. cbn iota. change (nth_error [1; 2] (Z.to_nat 1)) with (Some 2).
      match goal with |- context [bottomup _ _ _ (S f) ?s2 (Loop 0 (Some 2))] => destruct (IH (S f) ltac:(lia) s2) as [_ ->]; [|reflexivity] end.
      intros x. specialize (Hk x). destruct x as [|[|[|x]]]; cbn; rewrite ?app_nil_r; exact Hk.
    - cbn [bottomup]. destruct f as [|f]; [reflexivity|].
      assert (E1 : bottomup (fun _ => []) tc (fun _ => true) (S f) s (Visit 2) = Some (act (fun _ => []) tc s 2, [2])).
      { cbn [bottomup]. unfold has_first_child. rewrite Hk. reflexivity. }
      rewrite E1. unfold get_next_child. cbn [act fold_left tc kids ptr setp fst snd]. cbn [Nat.eqb]. rewrite Hk. cbn [kd length].
      change (0 + 1)%Z with 1%Z. change (1 <? Z.of_nat 2)%Z with true. change (1 <? 0)%Z with false. cbn iota. change (nth_error [1; 2] (Z.to_nat 1)) with (Some 2).
      match goal with |- context [bottomup _ _ _ (S f) ?s2 (Loop 0 (Some 2))] => destruct (IH (S f) ltac:(lia) s2) as [_ ->]; [|reflexivity] end.
      intros x. specialize (Hk x). destruct x as [|[|[|x]]]; cbn; rewrite ?app_nil_r; exact Hk. }
  intros [|fuel]; [reflexivity|]. cbn [bottomup]. unfold has_first_child, get_first_child. cbn [kids kd hd_error].
  destruct (G fuel (setp (TreeSt kd (fun _ => (-1)%Z)) 0 0)) as [-> _]; auto.
Qed.
Example C65_example :
  (* 0 creates 1 and 2 in its build, 1 creates 3; 2 is in another domain *)
  let adds := fun c => match c with 0 => [1; 2] | 1 => [3] | _ => [] end in
  let dom := fun c => negb (Nat.eqb c 2) in
  let t := Tr 0 [Tr 1 [Tr 3 []]; Tr 2 []] in
  shape (fun c => if dom c then [] ++ adds c else []) t /\ NoDup (preorder t) /\
  (match topdown adds (fun _ => []) dom 20 (TreeSt (fun _ => []) (fun _ => (-1)%Z)) (Visit 0) with Some (_, v) => v = [0; 1; 3] | None => False end) /\
  (match bottomup (fun _ => []) (fun c => [(c, 7%Z)]) (fun _ => true) 20 (TreeSt adds (fun _ => (-1)%Z)) (Visit 0) with Some (_, v) => v = [3; 1; 2; 0] | None => False end).
Proof.
  cbn. repeat split; try reflexivity. repeat constructor; cbn; intuition discriminate.
Qed.
Example C105_example : let s := TreeSt (fun _ => [4; 5; 6]) (fun _ => 9%Z) in
  collect 4 (fst (get_first_child s 0)) 0 (snd (get_first_child s 0)) = Some [4; 5; 6].
Proof. reflexivity. Qed.
Print Assumptions C65_topdown.
Print Assumptions C65_bottomup.
Print Assumptions C65_task.
Print Assumptions C105_alone.
Print Assumptions C105_nested_limit.
