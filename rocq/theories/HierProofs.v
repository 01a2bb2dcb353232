(** Proofs about settings in the component hierarchy. *)
From Coq Require Import List Bool Arith ZArith Lia Sorted.
From Verif Require Import Prelude ReportModel ReportSpec HierModel HierSpec.
Import ListNotations.
Local Open Scope nat_scope.

(** ** Trees of numbers *)
Section Tree.
Context (K : nat -> list nat) (n : nat).
Inductive below (a : nat) : nat -> Prop :=
| below_refl : below a a
| below_child p x : In x (K p) -> below a p -> below a x.
Context (Hlt : forall p x, In x (K p) -> p < x /\ x < n) (Huniq : forall p q x, In x (K p) -> In x (K q) -> p = q)
  (Hnd : forall p, NoDup (K p)).
Fixpoint pre (k c : nat) : list nat := match k with O => [] | S k => c :: flat_map (pre k) (K c) end.
Fixpoint post (k c : nat) : list nat := match k with O => [] | S k => flat_map (post k) (K c) ++ [c] end.

Lemma below_le a x : below a x -> a <= x.
Proof. induction 1 as [|p x Hp _ IH]; [lia|]. apply Hlt in Hp. lia. Qed.
Lemma below_up a c x : In c (K a) -> below c x -> below a x.
Proof. intros Hc H. induction H as [|p x Hp _ IH]; [apply below_child with a; [exact Hc|constructor]|now apply below_child with p]. Qed.
Lemma below_top a x : below a x -> x = a \/ exists c, In c (K a) /\ below c x.
Proof.
  induction 1 as [|p x Hp _ [-> | (c & Hc & IH)]]; [now left| |].
  - right. exists x. split; [exact Hp|constructor].
  - right. exists c. split; [exact Hc|now apply below_child with p].
Qed.
Lemma below_trans a b x : below a b -> below b x -> below a x.
Proof. intros H1 H2. induction H2 as [|p x Hp _ IH]; [exact H1|now apply below_child with p]. Qed.
(** two nodes above the same one are comparable *)
Lemma below_chain a b x : below a x -> below b x -> below a b \/ below b a.
Proof.
  intros Ha. revert b. induction Ha as [|p x Hp Ha IH]; intros b Hb; [now right|].
  inversion Hb as [|q y Hq Hb' E]; subst.
  - left. now apply below_child with p.
  - rewrite (Huniq q p x Hq Hp) in Hb'. now apply IH.
Qed.
Lemma siblings_apart c a b x : In a (K c) -> In b (K c) -> below a x -> below b x -> a = b.
Proof.
  intros Ha Hb H1 H2. destruct (below_chain a b x H1 H2) as [H | H]; inversion H as [|p y Hp H' E]; subst; auto.
  - pose proof (Huniq p c b Hp Hb). subst p. apply below_le in H'. apply Hlt in Ha. lia.
  - pose proof (Huniq p c a Hp Ha). subst p. apply below_le in H'. apply Hlt in Hb. lia.
Qed.

Lemma pre_below k c x : In x (pre k c) -> below c x.
Proof.
  revert c x. induction k as [|k IH]; intros c x; cbn [pre]; [intros []|]. intros [<- | H]; [constructor|].
  apply in_flat_map in H. destruct H as (d & Hd & H). apply below_up with d; [exact Hd|now apply IH].
Qed.
Lemma below_pre k c x : n <= k + c -> c < n -> below c x -> In x (pre k c).
Proof.
  revert c x. induction k as [|k IH]; intros c x Hk Hc Hb; [lia|]. cbn [pre]. destruct (below_top c x Hb) as [-> | (d & Hd & H)]; [now left|].
  right. apply in_flat_map. exists d. split; [exact Hd|]. pose proof (Hlt c d Hd). apply IH; auto; lia.
Qed.
Lemma NoDup_flat {A} (f : nat -> list A) l : NoDup l -> (forall a, In a l -> NoDup (f a)) ->
  (forall a b x, In a l -> In b l -> In x (f a) -> In x (f b) -> a = b) -> NoDup (flat_map f l).
Proof.
  induction l as [|a l IH]; cbn [flat_map]; intros Hn Hf Hd; [constructor|]. apply NoDup_cons_iff in Hn. destruct Hn as [Ha Hn].
  assert (G : NoDup (flat_map f l)). { apply IH; auto; intros; [apply Hf|eapply Hd]; eauto; now right. }
  assert (D : forall x, In x (f a) -> ~ In x (flat_map f l)).
  { intros x H1 H2. apply in_flat_map in H2. destruct H2 as (b & Hb & H2). apply Ha. rewrite (Hd a b x); auto; [now left|now right]. }
  assert (F : NoDup (f a)) by (apply Hf; now left). clear -G D F. induction (f a) as [|y t IH]; [exact G|]. cbn [app]. apply NoDup_cons_iff in F. destruct F as [Fy Ft].
  constructor; [|apply IH; auto; intros x Hx; apply D; now right]. rewrite in_app_iff. intros [H | H]; [auto|]. apply (D y); [now left|exact H].
Qed.
Lemma pre_nodup k c : NoDup (pre k c).
Proof.
  revert c. induction k as [|k IH]; intros c; cbn [pre]; [constructor|]. constructor.
  - intros H. apply in_flat_map in H. destruct H as (d & Hd & H). apply pre_below, below_le in H. apply Hlt in Hd. lia.
  - apply NoDup_flat; [apply Hnd|auto|]. intros a b x Ha Hb H1 H2. apply pre_below in H1, H2. now apply siblings_apart with c x.
Qed.
Lemma post_in k c x : In x (post k c) <-> In x (pre k c).
Proof.
  revert c x. induction k as [|k IH]; intros c x; cbn [pre post]; [tauto|]. rewrite in_app_iff. cbn [In]. rewrite !in_flat_map.
  split; [intros [(d & Hd & H) | [-> | []]]|intros [-> | (d & Hd & H)]]; auto; [right|left]; exists d; (split; [exact Hd|now apply IH]).
Qed.
Lemma post_nodup k c : NoDup (post k c).
Proof.
  revert c. induction k as [|k IH]; intros c; cbn [post]; [constructor|].
  assert (H1 : NoDup (flat_map (post k) (K c))).
  { apply NoDup_flat; [apply Hnd|auto|]. intros a b x Ha Hb Q1 Q2. apply post_in, pre_below in Q1, Q2. now apply siblings_apart with c x. }
  apply NoDup_rev in H1. rewrite <- (rev_involutive (flat_map _ _ ++ [c])). apply NoDup_rev. rewrite rev_app_distr. cbn [rev app]. constructor; [|exact H1].
  rewrite <- in_rev, in_flat_map. intros (d & Hd & H). apply post_in, pre_below, below_le in H. apply Hlt in Hd. lia.
Qed.
Notation before := in_front.
Lemma before_flat (f : nat -> list nat) l x a b : In x l -> before (f x) a b -> before (flat_map f l) a b.
Proof.
  intros Hx (l1 & l2 & l3 & E). apply in_split in Hx. destruct Hx as (u & v & ->). rewrite flat_map_app. cbn [flat_map]. rewrite E.
  exists (flat_map f u ++ l1), l2, (l3 ++ flat_map f v). now rewrite <- !app_assoc; cbn [app]; rewrite <- !app_assoc; cbn [app].
Qed.
Lemma before_app l m a b : before l a b -> before (l ++ m) a b.
Proof. intros (l1 & l2 & l3 & ->). exists l1, l2, (l3 ++ m). now rewrite <- !app_assoc; cbn [app]; rewrite <- !app_assoc. Qed.
Lemma post_order k c a d : In a (post k c) -> In d (post k c) -> below a d -> a <> d -> before (post k c) d a.
Proof.
  revert c a d. induction k as [|k IH]; intros c a d; cbn [post]; [intros []|]. intros Ha Hd Hb Hne.
  assert (Hcd : In d (flat_map (post k) (K c))).
  { apply in_app_iff in Hd. destruct Hd as [Hd | [-> | []]]; [exact Hd|]. exfalso. apply Hne.
    assert (H : below d a) by (apply pre_below with (S k); now apply post_in). apply below_le in H, Hb. lia. }
  apply in_app_iff in Ha. destruct Ha as [Ha | [-> | []]].
  - apply in_flat_map in Ha, Hcd. destruct Ha as (x & Hx & Ha). destruct Hcd as (y & Hy & Hd'). apply before_app, before_flat with x; [exact Hx|]. apply IH; auto.
    assert (x = y); [|now subst]. apply siblings_apart with c d; auto; [apply below_trans with a; auto|]; apply pre_below with k; now apply post_in.
  - apply in_split in Hcd. destruct Hcd as (u & v & ->). exists u, v, []. now rewrite <- app_assoc.
Qed.
(** the subtrees of earlier siblings come first *)
Lemma post_siblings k c p x y a d : below c p -> before (K p) x y -> In a (post k c) -> In d (post k c) -> below x a -> below y d -> before (post k c) a d.
Proof.
  revert c. induction k as [|k IH]; intros c Hp Hxy Ha Hd Hba Hbd; [destruct Ha|]. cbn [post] in *. apply before_app.
  assert (Hx : In x (K p)). { destruct Hxy as (l1 & l2 & l3 & ->). apply in_or_app. right. now left. }
  assert (Hy : In y (K p)). { destruct Hxy as (l1 & l2 & l3 & ->). apply in_or_app. right. right. apply in_or_app. right. now left. }
  assert (Q : forall z w, In z (K p) -> below z w -> In w (flat_map (post k) (K c) ++ [c]) -> exists u, In u (K c) /\ In w (post k u)).
  { intros z w Hz Hzw Hw. apply in_app_iff in Hw. destruct Hw as [Hw | [<- | []]]; [now apply in_flat_map in Hw|].
    exfalso. apply below_le in Hp, Hzw. apply Hlt in Hz. lia. }
  destruct (Q x a Hx Hba Ha) as (u & Hu & Ca). destruct (Q y d Hy Hbd Hd) as (w & Hw & Cd).
  assert (Bu : below u a) by (apply pre_below with k; now apply post_in). assert (Bw : below w d) by (apply pre_below with k; now apply post_in).
  destruct (below_top c p Hp) as [-> | (q & Hq & Hb)].
  - assert (u = x) by (apply siblings_apart with c a; auto). assert (w = y) by (apply siblings_apart with c d; auto). subst u w.
    destruct Hxy as (l1 & l2 & l3 & E). rewrite E, !flat_map_app. cbn [flat_map]. rewrite flat_map_app. cbn [flat_map].
    apply in_split in Ca, Cd. destruct Ca as (a1 & a2 & Ea). destruct Cd as (d1 & d2 & Ed). rewrite Ea, Ed.
    exists (flat_map (post k) l1 ++ a1), (a2 ++ flat_map (post k) l2 ++ d1), (d2 ++ flat_map (post k) l3). now repeat (rewrite <- !app_assoc; cbn [app]).
  - assert (B : forall z w, In z (K p) -> below z w -> below q w) by (intros z v Hz Hzv; apply below_trans with z; [now apply below_child with p|exact Hzv]).
    assert (u = q) by (apply siblings_apart with c a; eauto). assert (w = q) by (apply siblings_apart with c d; eauto). subst u w.
    apply before_flat with q; auto.
Qed.
End Tree.

(** ** The calls on the tree *)
Section Calls.
Context (K : nat -> list nat) (n : nat).
Context (Hlt : forall p x, In x (K p) -> p < x /\ x < n) (Huniq : forall p q x, In x (K p) -> In x (K q) -> p = q)
  (Hnd : forall p, NoDup (K p)).
Lemma down_pre f k s c : (forall c s, kids (f c s) = kids s) -> kids s = K -> n <= k + c -> c < n ->
  down k f s c = Some (fold_left (fun s x => f x s) (pre K k c) s) /\ kids (fold_left (fun s x => f x s) (pre K k c) s) = K.
Proof.
  intros Hf. revert s c. induction k as [|k IH]; intros s c Hk Hn Hc; [lia|]. cbn [down pre fold_left].
  assert (Hk1 : kids (f c s) = K) by now rewrite Hf. rewrite Hk1.
  assert (G : forall l s, kids s = K -> (forall x, In x l -> In x (K c)) ->
    fold_left (fun o ch => match o with Some s => down k f s ch | None => None end) l (Some s) = Some (fold_left (fun s x => f x s) (flat_map (pre K k) l) s) /\
    kids (fold_left (fun s x => f x s) (flat_map (pre K k) l) s) = K).
  { induction l as [|x l IHl]; intros s1 E Hl; [auto|]. cbn [fold_left flat_map]. pose proof (Hlt c x (Hl x (or_introl eq_refl))).
    destruct (IH s1 x E) as [E1 E2]; [lia|lia|]. rewrite E1, fold_left_app. apply IHl; [exact E2|]. intros y Hy. apply Hl. now right. }
  apply G; auto.
Qed.
Lemma abort_post k s c : kids s = K -> n <= k + c -> c < n -> abort k s c = Some (post K k c).
Proof.
  intros Hk. revert c. induction k as [|k IH]; intros c Hn Hc; [lia|]. cbn [abort post]. rewrite Hk.
  assert (G : forall l acc, (forall x, In x l -> In x (K c)) ->
    fold_left (fun o ch => match o, abort k s ch with Some l, Some m => Some (l ++ m) | _, _ => None end) l (Some acc) = Some (acc ++ flat_map (post K k) l)).
  { induction l as [|x l IHl]; intros acc Hl; cbn [fold_left flat_map]; [now rewrite app_nil_r|]. pose proof (Hlt c x (Hl x (or_introl eq_refl))).
    rewrite IH by lia. rewrite IHl by (intros y Hy; apply Hl; now right). now rewrite app_assoc. }
  now rewrite G.
Qed.
End Calls.
Lemma upd_same {B} (f : nat -> B) c v : upd f c v c = v.
Proof. unfold upd. now rewrite Nat.eqb_refl. Qed.
Lemma upd_other {B} (f : nat -> B) c v x : x <> c -> upd f c v x = f x.
Proof. intros H. unfold upd. destruct (Nat.eqb c x) eqn:E; [apply Nat.eqb_eq in E; congruence|]. destruct (Nat.eqb x c) eqn:E2; [apply Nat.eqb_eq in E2; congruence|reflexivity]. Qed.

Lemma fold_hand op l s x : NoDup l ->
  let s' := fold_left (fun s c => set_hand c op s) l s in
  (In x l -> hand s' x = hset (hand s x) op) /\ (~ In x l -> hand s' x = hand s x) /\ size s' = size s /\ dom s' = dom s /\ imps s' = imps s.
Proof.
  revert s. induction l as [|c l IH]; intros s Hn; cbn [fold_left]; [cbn; tauto|]. apply NoDup_cons_iff in Hn. destruct Hn as [Hc Hn].
  specialize (IH (set_hand c op s) Hn). destruct IH as (A & B & C1 & C2 & C3). cbn [set_hand size dom imps hand] in *.
  split; [|split; [|auto]].
  - intros [-> | H]; [rewrite B by exact Hc; now rewrite upd_same|]. rewrite A by exact H. rewrite upd_other; [reflexivity|]. intros ->. now apply Hc.
  - intros H. rewrite B by (intros H'; apply H; now right). apply upd_other. intros ->. apply H. now left.
Qed.
Lemma fold_dom d l s x : let s' := fold_left (fun s c => set_dom d c s) l s in
  (In x l -> dom s' x = d) /\ (~ In x l -> dom s' x = dom s x) /\ size s' = size s /\ hand s' = hand s /\ imps s' = imps s.
Proof.
  revert s. induction l as [|c l IH]; intros s; cbn [fold_left]; [cbn; tauto|].
  specialize (IH (set_dom d c s)). destruct IH as (A & B & C1 & C2 & C3). cbn [set_dom size dom imps hand] in *.
  split; [|split; [|auto]].
  - intros Hx. destruct (in_dec Nat.eq_dec x l) as [H|H]; [now apply A|]. destruct Hx as [-> | Hx]; [|tauto]. rewrite B by exact H. apply upd_same.
  - intros H. rewrite B by (intros H'; apply H; now right). apply upd_other. intros ->. apply H. now left.
Qed.
Lemma fold_imp ph i l s x q : let s' := fold_left (fun s c => set_imp ph i c s) l s in
  (In x l -> q = ph -> imps s' x q = Some i) /\ (~ (In x l /\ q = ph) -> imps s' x q = imps s x q) /\ size s' = size s /\ hand s' = hand s /\ dom s' = dom s.
Proof.
  revert s. induction l as [|c l IH]; intros s; cbn [fold_left]; [cbn; tauto|].
  specialize (IH (set_imp ph i c s)). destruct IH as (A & B & C1 & C2 & C3). cbn [set_imp size dom imps hand] in *.
  split; [|split; [|auto]].
  - intros Hx ->. destruct (in_dec Nat.eq_dec x l) as [H|H]; [now apply A|]. destruct Hx as [-> | Hx]; [|tauto]. rewrite B by tauto. now rewrite !upd_same.
  - intros H. rewrite B by (intros [H1 H2]; apply H; split; [now right|exact H2]). destruct (Nat.eq_dec x c) as [->|Hn]; [|now rewrite upd_other].
    rewrite upd_same. apply upd_other. intros ->. apply H. split; [now left|reflexivity].
Qed.

(** ** Histories *)
Definition kids_of (ps : list nat) (c : nat) : list nat :=
  filter (fun x => match nth_error ps (x - 1) with Some p => Nat.eqb p c | None => false end) (seq 1 (length ps)).
Record Inv (h : list label) (s : hs) : Prop := {
  I_size : size s = many h;
  I_kids : forall c, kids s c = kids_of (news h) c }.

Lemma kids_of_in h c x : In x (kids_of (news h) c) <-> child_of h c x.
Proof.
  unfold kids_of, child_of. rewrite filter_In, in_seq. split.
  - intros [H1 H2]. destruct (nth_error _ _) as [p|] eqn:E; [|discriminate]. apply Nat.eqb_eq in H2. subst p. split; [lia|reflexivity].
  - intros [H1 H2]. rewrite H2, Nat.eqb_refl. assert (x - 1 < length (news h)) by (apply nth_error_Some; congruence). split; [lia|reflexivity].
Qed.
Lemma kids_nodup ps c : NoDup (kids_of ps c).
Proof. apply NoDup_filter, seq_NoDup. Qed.
Lemma news_app h1 h2 : news (h1 ++ h2) = news h1 ++ news h2.
Proof. apply flat_map_app. Qed.
Lemma many_app h1 h2 : many (h1 ++ h2) = many h1 + length (news h2).
Proof. unfold many. rewrite news_app, app_length. lia. Qed.
Lemma proper_prefix h1 h2 : proper (h1 ++ h2) -> proper h1.
Proof. intros H a l b E. apply (H a l (b ++ h2)). rewrite E. now rewrite <- app_assoc. Qed.
Lemma proper_target h l h2 : proper (h ++ l :: h2) -> target l < many h.
Proof. intros H. now apply (H h l h2). Qed.
(** parents are older *)
Lemma child_older h p x : proper h -> child_of h p x -> p < x /\ x < many h.
Proof.
  intros Hp [H0 H]. assert (Hx : x - 1 < length (news h)) by (apply nth_error_Some; congruence). split; [|unfold many; lia].
  revert Hp Hx H. induction h as [|l h IH] using rev_ind; intros Hp Hx H; [destruct (x - 1); discriminate|].
  rewrite news_app in H, Hx. destruct (le_lt_dec (length (news h)) (x - 1)) as [Hge|Hl].
  - rewrite nth_error_app2 in H by exact Hge. pose proof (proper_target h l [] Hp). destruct l; cbn [news flat_map app] in H, Hx; try (destruct (x - 1 - length (news h)); discriminate).
    rewrite app_length in Hx. cbn in Hx. replace (x - 1 - length (news h)) with 0 in H by lia. injection H as <-. cbn [target] in *. unfold many in *. lia.
  - rewrite nth_error_app1 in H by exact Hl. apply IH; auto. now apply proper_prefix in Hp.
Qed.
Lemma child_fun h p q x : child_of h p x -> child_of h q x -> p = q.
Proof. intros [_ H1] [_ H2]. congruence. Qed.
Lemma child_prefix h h2 p x : x < many h -> child_of (h ++ h2) p x <-> child_of h p x.
Proof.
  intros Hx. unfold child_of, many in *. rewrite news_app. split; intros [H1 H2]; (split; [exact H1|]).
  - rewrite nth_error_app1 in H2 by lia. exact H2.
  - rewrite nth_error_app1 by lia. exact H2.
Qed.
Lemma under_prefix h h2 a x : proper h -> x < many h -> under (h ++ h2) a x <-> under h a x.
Proof.
  intros Hp Hx. split; intros H.
  - induction H as [|p x Hc _ IH]; [constructor|]. apply (proj1 (child_prefix h h2 p x Hx)) in Hc. apply under_child with p; [exact Hc|]. apply IH. destruct (child_older h p x Hp Hc); lia.
  - induction H as [|p x Hc _ IH]; [constructor|]. apply under_child with p; [now apply child_prefix|]. apply IH. destruct (child_older h p x Hp Hc); lia.
Qed.
Lemma under_lt h a x : proper h -> under h a x -> a <= x.
Proof. intros Hp H. induction H as [|p x Hc _ IH]; [lia|]. destruct (child_older h p x Hp Hc). lia. Qed.
Lemma below_under h s a x : Inv h s -> below (kids s) a x <-> under h a x.
Proof.
  intros I. split; intros H; induction H as [|p x Hc _ IH]; try constructor.
  - apply under_child with p; [|exact IH]. rewrite (I_kids h s I) in Hc. now apply kids_of_in.
  - apply below_child with p; [|exact IH]. rewrite (I_kids h s I). now apply kids_of_in.
Qed.
Lemma inv_tree h s : proper h -> Inv h s ->
  (forall p x, In x (kids s p) -> p < x /\ x < size s) /\ (forall p q x, In x (kids s p) -> In x (kids s q) -> p = q) /\ (forall p, NoDup (kids s p)).
Proof.
  intros Hp I. split; [|split].
  - intros p x H. rewrite (I_kids h s I) in H. apply kids_of_in in H. rewrite (I_size h s I). now apply child_older.
  - intros p q x H1 H2. rewrite (I_kids h s I) in H1, H2. apply kids_of_in in H1, H2. now apply child_fun with h x.
  - intros p. rewrite (I_kids h s I). apply kids_nodup.
Qed.
Lemma all_down_spec h s f c : proper h -> Inv h s -> c < many h -> (forall c s, kids (f c s) = kids s) ->
  exists l, all_down f s c = (fold_left (fun s x => f x s) l s, []) /\ NoDup l /\ (forall x, In x l <-> under h c x) /\
    kids (fold_left (fun s x => f x s) l s) = kids s.
Proof.
  intros Hp I Hc Hf. destruct (inv_tree h s Hp I) as (T1 & T2 & T3). rewrite <- (I_size h s I) in Hc.
  destruct (down_pre (kids s) (size s) T1 f (size s) s c Hf eq_refl) as [E1 E2]; [lia|lia|].
  exists (pre (kids s) (size s) c). unfold all_down. rewrite E1. split; [reflexivity|]. split; [now apply pre_nodup with (n := size s)|]. split; [|exact E2].
  intros x. rewrite <- (below_under h s c x I). split; [apply pre_below|]. apply (below_pre (kids s) (size s) T1); lia.
Qed.

Lemma many_snoc h l : many (h ++ [l]) = match l with LNew _ _ => S (many h) | _ => many h end.
Proof. rewrite many_app. destruct l; cbn [news flat_map app length]; lia. Qed.
Lemma inv_step h s l : proper (h ++ [l]) -> Inv h s -> Inv (h ++ [l]) (fst (step s l)) /\ ~ In OLoop (snd (step s l)).
Proof.
  intros Hp I. pose proof (proper_target h l [] Hp) as Ht. apply proper_prefix in Hp.
  assert (Same : forall s', size s' = size s -> kids s' = kids s -> many (h ++ [l]) = many h -> news (h ++ [l]) = news h -> Inv (h ++ [l]) s').
  { intros s' E1 E2 E3 E4. constructor; [rewrite E1, E3; apply I|]. intros c. rewrite E2, E4. apply I. }
  assert (Nn : (forall p cl, l <> LNew p cl) -> many (h ++ [l]) = many h /\ news (h ++ [l]) = news h).
  { intros H. rewrite many_snoc, news_app. destruct l; cbn; rewrite ?app_nil_r; auto. exfalso. eapply H. reflexivity. }
  destruct l as [p cl|c op|c op|c d f|c ph i f|]; cbn [step target] in *.
  - split; [|intros []]. cbn [fst]. unfold create. cbn zeta. constructor; cbn [size kids].
    + rewrite many_snoc. now rewrite <- (I_size h s I).
    + intros c. rewrite news_app. cbn [news flat_map app]. unfold kids_of. rewrite app_length. cbn [length]. rewrite seq_app, filter_app. cbn [seq filter].
      replace (1 + length (news h) - 1) with (length (news h)) by lia. rewrite nth_error_app2 by lia. rewrite Nat.sub_diag. cbn [nth_error].
      assert (E : filter (fun x => match nth_error (news h ++ [p]) (x - 1) with Some p0 => p0 =? c | None => false end) (seq 1 (length (news h))) = kids_of (news h) c).
      { unfold kids_of. apply filter_ext_in. intros x Hx. apply in_seq in Hx. rewrite nth_error_app1 by lia. reflexivity. }
      rewrite E. pose proof (I_size h s I) as Es. unfold many in Es. destruct (Nat.eq_dec c p) as [->|Hn].
      * rewrite upd_same, Nat.eqb_refl, (I_kids h s I), Es. reflexivity.
      * rewrite upd_other by exact Hn. assert (E2 : p =? c = false) by (apply Nat.eqb_neq; congruence). rewrite E2, app_nil_r.
        destruct (Nat.eq_dec c (size s)) as [->|Hn2]; [|rewrite upd_other by exact Hn2; apply I]. rewrite upd_same. symmetry.
        destruct (kids_of (news h) (size s)) as [|y t] eqn:Ek; [reflexivity|]. assert (Hy : In y (kids_of (news h) (size s))) by (rewrite Ek; now left).
        apply kids_of_in in Hy. apply child_older in Hy; [|exact Hp]. rewrite (I_size h s I) in Hy. lia.
  - destruct Nn as [E1 E2]; [discriminate|]. split; [apply Same; auto|intros []].
  - destruct Nn as [E1 E2]; [discriminate|]. destruct (has_hier op); [|split; [apply Same; auto|intros [H|[]]; discriminate]].
    destruct (all_down_spec h s (fun c => set_hand c op) c Hp I Ht) as (l & E & Hnd & _ & Hk); [reflexivity|]. rewrite E. split; [|intros []]. cbn [fst].
    apply Same; auto. apply (fold_hand op l s 0 Hnd).
  - destruct Nn as [E1 E2]; [discriminate|]. destruct f; try (split; [apply Same; auto|intros []]).
    destruct (all_down_spec h s (set_dom d) c Hp I Ht) as (l & E & Hnd & _ & Hk); [reflexivity|]. rewrite E. split; [|intros []]. cbn [fst].
    apply Same; auto. apply (fold_dom d l s 0).
  - destruct Nn as [E1 E2]; [discriminate|]. destruct f; try (split; [apply Same; auto|intros []]);
      destruct (all_down_spec h s (set_imp ph i) c Hp I Ht) as (l & E & Hnd & _ & Hk); try reflexivity; rewrite E; (split; [|intros []]); cbn [fst];
      apply Same; auto; apply (fold_imp ph i l s 0 0).
  - destruct Nn as [E1 E2]; [discriminate|]. split; [apply Same; auto|]. cbn [snd].
    destruct (inv_tree h s Hp I) as (T1 & _). rewrite (abort_post (kids s) (size s) T1); [|reflexivity|lia|rewrite (I_size h s I); unfold many; lia].
    intros H. apply in_map_iff in H. destruct H as (x & Hx & _). discriminate.
Qed.
Lemma run_snoc cl h l : fst (run cl (h ++ [l])) = fst (step (fst (run cl h)) l).
Proof. unfold run. rewrite run_machine_app. cbn [fst run_machine]. destruct (step _ l). reflexivity. Qed.
Lemma outs_snoc cl h l : snd (run cl (h ++ [l])) = snd (run cl h) ++ snd (step (fst (run cl h)) l).
Proof. unfold run. rewrite run_machine_app. cbn [snd run_machine]. destruct (step _ l). cbn. now rewrite app_nil_r. Qed.
Lemma inv_run cl h : proper h -> Inv h (fst (run cl h)) /\ ~ In OLoop (snd (run cl h)).
Proof.
  induction h as [|l h IH] using rev_ind; intros Hp.
  - split; [|intros []]. constructor; [reflexivity|]. intros c. reflexivity.
  - destruct (IH (proper_prefix _ _ Hp)) as [I J]. rewrite run_snoc, outs_snoc. destruct (inv_step h _ l Hp I) as [A B]. split; [exact A|]. rewrite in_app_iff. tauto.
Qed.

(** ** What a step does to a component that exists *)
Lemma says_report_prefix h h2 x l op : proper h -> x < many h -> says_report (h ++ h2) x l op <-> says_report h x l op.
Proof. intros Hp Hx. split; intros H; inversion H; subst; constructor; auto; now apply (under_prefix h h2) in H0 || now apply (under_prefix h h2). Qed.
Lemma says_domain_prefix h h2 x l d : proper h -> x < many h -> says_domain (h ++ h2) x l d <-> says_domain h x l d.
Proof. intros Hp Hx. split; intros H; inversion H; subst; constructor; now apply (under_prefix h h2) in H0 || now apply (under_prefix h h2). Qed.
Lemma says_imp_prefix h h2 x ph l i : proper h -> x < many h -> says_imp (h ++ h2) x ph l i <-> says_imp h x ph l i.
Proof. intros Hp Hx. split; intros H; inversion H; subst; constructor; auto; now apply (under_prefix h h2) in H0 || now apply (under_prefix h h2). Qed.

Lemma has_hier_ok op : has_hier op = true <-> hier_form op.
Proof. unfold hier_form. destruct op; cbn; split; intros H; repeat split; intros; try discriminate; try reflexivity; destruct H as (H1 & H2 & H3); exfalso; solve [eapply H1; reflexivity|eapply H2; reflexivity|apply H3; reflexivity]. Qed.
Lemma step_report h s l x : proper (h ++ [l]) -> Inv h s -> x < many h ->
  (forall op, says_report h x l op -> hand (fst (step s l)) x = hset (hand s x) op) /\
  ((forall op, ~ says_report h x l op) -> hand (fst (step s l)) x = hand s x).
Proof.
  intros Hp I Hx. pose proof (proper_target h l [] Hp) as Ht. apply proper_prefix in Hp.
  destruct l as [p cl|c op|c op|c d f|c ph i f|]; cbn [step target] in *.
  - split; [intros ? H; inversion H|]. intros _. cbn [fst create hand]. apply upd_other. rewrite (I_size h s I). lia.
  - split.
    + intros o H. inversion H; subst. cbn [fst set_hand hand]. apply upd_same.
    + intros H. cbn [fst set_hand hand]. apply upd_other. intros ->. apply (H op). constructor.
  - destruct (has_hier op) eqn:Eh.
    + destruct (all_down_spec h s (fun c => set_hand c op) c Hp I Ht) as (l & E & Hnd & Hin & Hk); [reflexivity|]. rewrite E. cbn [fst].
      destruct (fold_hand op l s x Hnd) as (A & B & _). split.
      * intros o H. inversion H; subst. apply A. now apply Hin.
      * intros H. apply B. intros H'. apply (H op). constructor; [now apply Hin|now apply has_hier_ok].
    + split; [intros o H; inversion H as [|? ? ? Hf]; subst; apply has_hier_ok in Hf; congruence|reflexivity].
  - split; [intros o H; inversion H|]. intros _. destruct f; try reflexivity.
    destruct (all_down_spec h s (set_dom d) c Hp I Ht) as (l & E & Hnd & _ & Hk); [reflexivity|]. rewrite E. cbn [fst]. now rewrite (proj1 (proj2 (proj2 (proj2 (fold_dom d l s x))))).
  - split; [intros o H; inversion H|]. intros _. destruct f; try reflexivity;
      destruct (all_down_spec h s (set_imp ph i) c Hp I Ht) as (l & E & Hnd & _ & Hk); try reflexivity; rewrite E; cbn [fst]; now rewrite (proj1 (proj2 (proj2 (proj2 (fold_imp ph i l s x 0))))).
  - split; [intros o H; inversion H|reflexivity].
Qed.
Lemma step_domain h s l x : proper (h ++ [l]) -> Inv h s -> x < many h ->
  (forall d, says_domain h x l d -> dom (fst (step s l)) x = d) /\
  ((forall d, ~ says_domain h x l d) -> dom (fst (step s l)) x = dom s x).
Proof.
  intros Hp I Hx. pose proof (proper_target h l [] Hp) as Ht. apply proper_prefix in Hp.
  destruct l as [p cl|c op|c op|c d f|c ph i f|]; cbn [step target] in *.
  - split; [intros ? H; inversion H|]. intros _. cbn [fst create dom]. apply upd_other. rewrite (I_size h s I). lia.
  - split; [intros o H; inversion H|reflexivity].
  - split; [intros o H; inversion H|]. intros _. destruct (has_hier op); [|reflexivity].
    destruct (all_down_spec h s (fun c => set_hand c op) c Hp I Ht) as (l & E & Hnd & Hin & Hk); [reflexivity|]. rewrite E. cbn [fst].
    now rewrite (proj1 (proj2 (proj2 (proj2 (fold_hand op l s x Hnd))))).
  - assert (Own : forall f, f <> FTrue -> (forall d0, says_domain h x (LDomain c d f) d0 -> dom (fst (set_dom d c s, @nil out)) x = d0) /\
      ((forall d0, ~ says_domain h x (LDomain c d f) d0) -> dom (fst (set_dom d c s, @nil out)) x = dom s x)).
    { intros g Hg. split; [intros d0 H; inversion H; subst; [apply upd_same|congruence]|]. intros H. cbn [fst set_dom dom]. apply upd_other. intros ->. apply (H d). constructor. }
    destruct f; try (now apply Own).
    destruct (all_down_spec h s (set_dom d) c Hp I Ht) as (l & E & Hnd & Hin & Hk); [reflexivity|]. rewrite E. cbn [fst]. destruct (fold_dom d l s x) as (A & B & _). split.
    + intros d0 H. inversion H; subst; apply A, Hin; [constructor|assumption].
    + intros H. apply B. intros H'. apply (H d). apply dom_above. now apply Hin.
  - split; [intros o H; inversion H|]. intros _. destruct f; try reflexivity;
      destruct (all_down_spec h s (set_imp ph i) c Hp I Ht) as (l & E & Hnd & _ & Hk); try reflexivity; rewrite E; cbn [fst]; now rewrite (proj2 (proj2 (proj2 (proj2 (fold_imp ph i l s x 0))))).
  - split; [intros o H; inversion H|reflexivity].
Qed.
Lemma step_imp h s l x q : proper (h ++ [l]) -> Inv h s -> x < many h ->
  (forall i, says_imp h x q l i -> imps (fst (step s l)) x q = Some i) /\
  ((forall i, ~ says_imp h x q l i) -> imps (fst (step s l)) x q = imps s x q).
Proof.
  intros Hp I Hx. pose proof (proper_target h l [] Hp) as Ht. apply proper_prefix in Hp.
  destruct l as [p cl|c op|c op|c d f|c ph i f|]; cbn [step target] in *.
  - split; [intros ? H; inversion H|]. intros _. cbn [fst create imps]. rewrite upd_other; [reflexivity|]. rewrite (I_size h s I). lia.
  - split; [intros o H; inversion H|reflexivity].
  - split; [intros o H; inversion H|]. intros _. destruct (has_hier op); [|reflexivity].
    destruct (all_down_spec h s (fun c => set_hand c op) c Hp I Ht) as (l & E & Hnd & Hin & Hk); [reflexivity|]. rewrite E. cbn [fst].
    now rewrite (proj2 (proj2 (proj2 (proj2 (fold_hand op l s x Hnd))))).
  - split; [intros o H; inversion H|]. intros _. destruct f; try reflexivity.
    destruct (all_down_spec h s (set_dom d) c Hp I Ht) as (l & E & Hnd & _ & Hk); [reflexivity|]. rewrite E. cbn [fst]. now rewrite (proj2 (proj2 (proj2 (proj2 (fold_dom d l s x))))).
  - assert (Down : f <> FFalse -> (forall i0, says_imp h x q (LImp c ph i f) i0 -> imps (fst (all_down (set_imp ph i) s c)) x q = Some i0) /\
      ((forall i0, ~ says_imp h x q (LImp c ph i f) i0) -> imps (fst (all_down (set_imp ph i) s c)) x q = imps s x q)).
    { intros Hf. destruct (all_down_spec h s (set_imp ph i) c Hp I Ht) as (l & E & Hnd & Hin & Hk); [reflexivity|]. rewrite E. cbn [fst].
      destruct (fold_imp ph i l s x q) as (A & B & _). split.
      - intros d0 H. inversion H; subst; apply A; auto; apply Hin; [constructor|assumption].
      - intros H. apply B. intros [H1 ->]. apply (H i). apply imp_above; [now apply Hin|exact Hf]. }
    destruct f; try (apply Down; discriminate). cbn [fst set_imp imps]. split.
    + intros i0 H. inversion H; subst; [now rewrite !upd_same|congruence].
    + intros H. destruct (Nat.eq_dec x c) as [->|Hn]; [|now rewrite upd_other]. rewrite upd_same. apply upd_other. intros ->. apply (H i). constructor.
  - split; [intros o H; inversion H|reflexivity].
Qed.
