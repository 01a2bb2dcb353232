(** Theorems about the phases that a phase waits for before it ends. *)
From Coq Require Import List Bool Arith Lia.
From Verif Require Import Prelude PhaseRunModel PhaseEndProps SibSpec.
Import ListNotations.
Local Open Scope nat_scope.

Lemma dadd_in l x y : In y (dadd l x) <-> In y l \/ y = x.
Proof.
  unfold dadd. destruct (existsb (Nat.eqb x) l) eqn:E.
  - apply existsb_exists in E. destruct E as (z & I & Ez). apply Nat.eqb_eq in Ez. subst z. split; auto. intros [H| ->]; auto.
  - rewrite in_app_iff. cbn. intuition.
Qed.
Lemma dadd_nodup l x : NoDup l -> NoDup (dadd l x).
Proof.
  intros N. unfold dadd. destruct (existsb (Nat.eqb x) l) eqn:E; auto.
  apply NoDup_Add with (a := x) (l := l). { rewrite <- (app_nil_r l) at 1. apply Add_app. }
  split; auto. intros I. assert (existsb (Nat.eqb x) l = true); [|congruence]. apply existsb_exists. exists x. split; auto. apply Nat.eqb_refl.
Qed.
Lemma dadds_in k : forall l y, In y (fold_left dadd k l) <-> In y l \/ In y k.
Proof. induction k as [|x k IH]; intros l y; cbn; [tauto|]. rewrite IH, dadd_in. intuition. Qed.
Lemma dadds_nodup k : forall l, NoDup l -> NoDup (fold_left dadd k l).
Proof. induction k as [|x k IH]; intros l N; cbn; auto using dadd_nodup. Qed.
Lemma ddel_in l x y : In y (ddel l x) <-> In y l /\ y <> x.
Proof. unfold ddel. rewrite filter_In, negb_true_iff, Nat.eqb_neq. intuition. Qed.
Lemma ddel_nodup l x : NoDup l -> NoDup (ddel l x).
Proof. apply NoDup_filter. Qed.

Section Expand.
Context (g : pgraph) (nbr : nat -> list nat).
Notation node := (isnode g).
Notation via := (Via node nbr).
Definition one (d : list nat) (s : nat) : list nat := if node s then d else fold_left dadd (nbr s) (ddel d s).
Lemma one_in d s x : In x (one d s) <-> if node s then In x d else (In x d /\ x <> s) \/ In x (nbr s).
Proof. unfold one. destruct (node s); [tauto|]. now rewrite dadds_in, ddel_in. Qed.
Lemma one_nodup d s : NoDup d -> NoDup (one d s).
Proof. intros N. unfold one. destruct (node s); auto. apply dadds_nodup, ddel_nodup, N. Qed.
Lemma expand1_one l : expand1 g nbr l = fold_left one l l.
Proof. reflexivity. Qed.

Definition reach (l : list nat) (t : nat) : Prop := exists x, In x l /\ via x t.
Lemma one_reach d s t : In s d -> (reach (one d s) t <-> reach d t).
Proof.
  intros I. unfold reach. split.
  - intros (x & H & V). rewrite one_in in H. destruct (node s) eqn:E; eauto. destruct H as [[H _]|H]; eauto. exists s. split; auto. eapply via_pass; eauto.
  - intros (x & H & V). destruct (node s) eqn:E; [exists x; rewrite one_in, E; auto|]. destruct (Nat.eq_dec x s) as [->|N].
    + inversion V as [? E'|? y ? _ Iy Vy]; subst; [congruence|]. exists y. rewrite one_in, E. auto.
    + exists x. rewrite one_in, E. auto.
Qed.
Lemma sweep_reach l : forall d t, NoDup l -> (forall x, In x l -> In x d) -> (reach (fold_left one l d) t <-> reach d t).
Proof.
  induction l as [|s l IH]; intros d t N SUB; cbn [fold_left]; [tauto|]. inversion N as [|? ? N1 N2]; subst. rewrite IH; auto.
  - apply one_reach. apply SUB. now left.
  - intros x I. rewrite one_in. destruct (node s); [apply SUB; now right|]. left. split; [apply SUB; now right|]. intros ->. tauto.
Qed.
Lemma sweep_nodup l : forall d, NoDup d -> NoDup (fold_left one l d).
Proof. induction l as [|s l IH]; intros d N; cbn; auto using one_nodup. Qed.
Lemma expand_ok fuel : forall l r, NoDup l -> expand g fuel nbr l = Some r -> NoDup r /\ forall t, In t r <-> reach l t.
Proof.
  assert (B : forall l, forallb node l = true -> forall t, In t l <-> reach l t).
  { intros l F t. rewrite forallb_forall in F. split.
    - intros I. exists t. split; auto. constructor. auto.
    - intros (x & I & V). inversion V as [? E|? y ? E _ _]; subst; auto. rewrite F in E by auto. discriminate. }
  induction fuel as [|k IH]; intros l r N E; cbn [expand] in E; destruct (forallb node l) eqn:F.
  - injection E as <-. auto.
  - discriminate.
  - injection E as <-. auto.
  - rewrite expand1_one in E. apply IH in E; [|now apply sweep_nodup]. destruct E as [E1 E2]. split; auto. intros t. rewrite E2. apply sweep_reach; auto.
Qed.

(** it ends if the phases that are not nodes have a rank *)
Section Ends.
Context (rank : nat -> nat) (H : forall x y, node x = false -> In y (nbr x) -> rank y < rank x).
Definition below (r : nat) (l : list nat) : Prop := forall x, In x l -> node x = false -> rank x < r.
Lemma sweep_below r l : forall d, below (S r) l -> (forall x, In x d -> node x = false -> In x l \/ rank x < r) -> below r (fold_left one l d).
Proof.
  induction l as [|s l IH]; intros d B I; cbn [fold_left].
  - intros x X E. destruct (I x X E) as [[]|]; auto.
  - apply IH. { intros x X E. apply B; auto. now right. }
    intros x X E. rewrite one_in in X. destruct (node s) eqn:Es.
    + destruct (I x X E) as [[<-|Y]|Y]; auto. congruence.
    + destruct X as [[X Nx]|X].
      * destruct (I x X E) as [[Y|Y]|Y]; auto. congruence.
      * right. apply H in X; auto. assert (rank s < S r) by (apply B; auto; now left). lia.
Qed.
Lemma expand_ends r : forall l fuel, below r l -> r <= fuel -> exists o, expand g fuel nbr l = Some o.
Proof.
  induction r as [|r IH]; intros l fuel B L.
  - exists l. assert (F : forallb node l = true). { apply forallb_forall. intros x I. destruct (node x) eqn:E; auto. specialize (B x I E). lia. }
    destruct fuel; cbn [expand]; now rewrite F.
  - destruct fuel as [|fuel]; [lia|]. cbn [expand]. destruct (forallb node l); eauto. rewrite expand1_one. apply IH; [|lia]. apply sweep_below; auto.
Qed.
End Ends.
(** and not if it comes to phases that are not nodes and that lead on to each other for ever *)
Lemma sweep_trapped (C : nat -> Prop) : (forall c, C c -> exists y, In y (nbr c) /\ C y) ->
  forall l d, (exists c, C c /\ In c d) -> exists c, C c /\ In c (fold_left one l d).
Proof.
  intros HC. induction l as [|s l IH]; intros d (c & Cc & I); cbn [fold_left]; [eauto|]. apply IH. destruct (node s) eqn:Es.
  - exists c. rewrite one_in, Es. auto.
  - destruct (Nat.eq_dec c s) as [->|N].
    + destruct (HC s Cc) as (y & Iy & Cy). exists y. rewrite one_in, Es. auto.
    + exists c. rewrite one_in, Es. auto.
Qed.
Lemma expand_trapped (C : nat -> Prop) : (forall c, C c -> node c = false /\ exists y, In y (nbr c) /\ C y) ->
  forall fuel l, (exists c, C c /\ In c l) -> expand g fuel nbr l = None.
Proof.
  intros HC. assert (F : forall l, (exists c, C c /\ In c l) -> forallb node l = false).
  { intros l (c & Cc & I). destruct (forallb node l) eqn:F; auto. rewrite forallb_forall in F. destruct (HC c Cc) as [E _]. rewrite F in E by auto. discriminate. }
  induction fuel as [|k IH]; intros l X; cbn [expand]; rewrite F by auto; auto. rewrite expand1_one. apply IH.
  apply sweep_trapped; auto. intros c Cc. now apply HC.
Qed.
End Expand.

Section Graph.
Context (g : pgraph).
Lemma succs_reach n t : reach g (succs g) (fold_left dadd (succs g n) []) t <-> Next g n t.
Proof. unfold reach, Next. split; intros (x & I & V); exists x; (split; [|exact V]); rewrite dadds_in in *; cbn in *; tauto. Qed.
Lemma preds_reach ss t : reach g (preds g) (fold_left dadd (flat_map (preds g) ss) []) t <-> exists s, In s ss /\ Prev g s t.
Proof.
  unfold reach, Prev. split.
  - intros (x & I & V). rewrite dadds_in in I. destruct I as [[]|I]. apply in_flat_map in I. destruct I as (s & Is & Ix). eauto.
  - intros (s & Is & x & Ix & V). exists x. split; auto. rewrite dadds_in. right. apply in_flat_map. eauto.
Qed.

(** ** C229 *)
Context (down up : nat -> nat).
Context (Hd : forall x y, isnode g x = false -> In y (succs g x) -> down y < down x).
Context (Hu : forall x y, isnode g x = false -> In y (preds g x) -> up y < up x).
Lemma bounded (rank : nat -> nat) l : exists r, below g rank r l.
Proof.
  induction l as [|x l [r IH]]; [exists 0; intros y []|]. exists (r + S (rank x)). intros y [<-|I] E; [lia|]. specialize (IH y I E). lia.
Qed.

(** The adjacent successor nodes are the first nodes on the paths that leave the phase, each
    once; if no schedule or domain leads back to itself. *)
Theorem C229_adjacent n : exists bound, forall fuel, bound <= fuel ->
  exists l, expand g fuel (succs g) (fold_left dadd (succs g n) []) = Some l /\ NoDup l /\ forall s, In s l <-> Next g n s.
Proof.
  destruct (bounded down (fold_left dadd (succs g n) [])) as [r B]. exists r. intros fuel L.
  destruct (expand_ends g (succs g) down Hd r _ fuel B L) as [l E]. exists l. split; auto.
  apply expand_ok in E; [|apply dadds_nodup; constructor]. destruct E as [E1 E2]. split; auto. intros s. rewrite E2. apply succs_reach.
Qed.

(** What a phase waits for before it ends: its siblings, each once. A phase not called "final"
    raises if it is not found itself. *)
Theorem C229_siblings n : exists bound, forall fuel, bound <= fuel ->
  if isfinal g n then exists l, siblings g fuel n = SOk l /\ NoDup l /\ forall p, In p l <-> Besides g n p
  else (Besides g n n /\ exists l, siblings g fuel n = SOk l /\ NoDup l /\ forall p, In p l <-> Sibling g n p) \/
       (~ Besides g n n /\ siblings g fuel n = SKeyErr).
Proof.
  destruct (C229_adjacent n) as [b1 H1]. destruct (H1 b1 (le_n _)) as (l1 & _ & _ & I1).
  (* the second search starts from a set that does not depend on the fuel; bound the ranks of all of it *)
  assert (exists b2, forall ss, (forall s, In s ss -> In s l1) -> below g up b2 (fold_left dadd (flat_map (preds g) ss) [])) as [b2 B2].
  { destruct (bounded up (flat_map (preds g) l1)) as [r B]. exists r. intros ss SUB x I E. rewrite dadds_in in I. destruct I as [[]|I].
    apply B; auto. apply in_flat_map in I. destruct I as (s & Is & Ix). apply in_flat_map. eauto. }
  exists (b1 + b2). intros fuel L. destruct (H1 fuel) as (ss & E1 & _ & I); [lia|].
  destruct (expand_ends g (preds g) up Hu b2 (fold_left dadd (flat_map (preds g) ss) []) fuel) as [ps E2]; [|lia|].
  { apply B2. intros s X. apply I1. now apply I. }
  assert (R := E2). apply expand_ok in R; [|apply dadds_nodup; constructor]. destruct R as [N R].
  assert (RB : forall p, In p ps <-> Besides g n p).
  { intros p. rewrite R, preds_reach. unfold Besides. split; intros (s & A & B); exists s; (split; [now apply I|exact B]). }
  unfold siblings. rewrite E1, E2. destruct (isfinal g n); [eauto|].
  destruct (existsb (Nat.eqb n) ps) eqn:E.
  - left. apply existsb_exists in E. destruct E as (x & Ix & Ex). apply Nat.eqb_eq in Ex. subst x. split; [now apply RB|].
    exists (ddel ps n). split; auto. split; [now apply ddel_nodup|]. intros p. rewrite ddel_in, RB. reflexivity.
  - right. split; auto. intros X. apply RB in X. assert (existsb (Nat.eqb n) ps = true); [|congruence]. apply existsb_exists. exists n. split; auto. apply Nat.eqb_refl.
Qed.
End Graph.
Print Assumptions C229_adjacent.
Print Assumptions C229_siblings.

(** With every edge known at both ends: being a sibling is mutual, and a phase other than
    "final" raises exactly if no node comes after it. *)
Section Mutual.
Context (g : pgraph) (H : forall n m, In m (succs g n) <-> In n (preds g m)).
Lemma via_back x : forall s, Via (isnode g) (succs g) x s -> forall n, In x (succs g n) -> isnode g n = true -> Prev g s n.
Proof.
  (* walk to s, collecting the way back *)
  assert (G : forall s, Via (isnode g) (succs g) x s -> forall n, In n (preds g x) -> forall p, Via (isnode g) (preds g) n p -> Prev g s p).
  { induction 1 as [t E|x y t E I V IH]; intros n In1 p Vp.
    - exists n. auto.
    - apply (IH x); [now apply H|]. eapply via_pass; eauto. }
  intros s V n I E. apply (G s V n); [now apply H|]. now constructor.
Qed.
Lemma via_forth x : forall s, Via (isnode g) (preds g) x s -> forall n, In x (preds g n) -> isnode g n = true -> Next g s n.
Proof.
  assert (G : forall s, Via (isnode g) (preds g) x s -> forall n, In n (succs g x) -> forall p, Via (isnode g) (succs g) n p -> Next g s p).
  { induction 1 as [t E|x y t E I V IH]; intros n In1 p Vp.
    - exists n. auto.
    - apply (IH x); [now apply H|]. eapply via_pass; eauto. }
  intros s V n I E. apply (G s V n); [now apply H|]. now constructor.
Qed.
Lemma via_end node nbr x t : Via node nbr x t -> node t = true.
Proof. induction 1; auto. Qed.
Theorem C229_mutual n p : isnode g n = true -> isnode g p = true ->
  (Next g n p <-> Prev g p n) /\ (Sibling g n p <-> Sibling g p n) /\ (Besides g n n <-> exists s, Next g n s).
Proof.
  intros En Ep.
  assert (NP : forall a b, isnode g a = true -> isnode g b = true -> (Next g a b <-> Prev g b a)).
  { intros a b Ea Eb. split; intros (x & I & V); [eapply via_back|eapply via_forth]; eauto. }
  assert (NE : forall a b, Next g a b -> isnode g b = true) by (intros a b (x & _ & V); eapply via_end; eauto).
  split; [auto|]. split.
  - unfold Sibling, Besides. split; intros ((s & A & B) & D); (split; [|congruence]); exists s.
    + assert (Es := NE _ _ A). split; [now apply NP|]. now apply NP.
    + assert (Es := NE _ _ A). split; [now apply NP|]. now apply NP.
  - split; [intros (s & A & _); eauto|]. intros (s & A). exists s. split; auto. apply NP; auto. eauto.
Qed.
End Mutual.
Print Assumptions C229_mutual.

(** A phase after which schedules or domains lead back to each other: the search never ends. *)
Theorem C229_cycle_limit g n (C : nat -> Prop) : (forall c, C c -> isnode g c = false /\ exists y, In y (succs g c) /\ C y) ->
  (exists c, C c /\ In c (succs g n)) -> forall fuel, siblings g fuel n = SLoop.
Proof.
  intros HC (c & Cc & I) fuel. unfold siblings. rewrite (expand_trapped g (succs g) C HC); auto. exists c. split; auto. rewrite dadds_in. auto.
Qed.
Print Assumptions C229_cycle_limit.
(** The same for a cycle met on the way back from an adjacent successor. *)
Theorem C229_back_cycle_limit g n (C : nat -> Prop) : (forall c, C c -> isnode g c = false /\ exists y, In y (preds g c) /\ C y) ->
  (exists s c, Next g n s /\ C c /\ In c (preds g s)) -> forall fuel, siblings g fuel n = SLoop.
Proof.
  intros HC (s & c & Nx & Cc & I) fuel. unfold siblings. destruct (expand g fuel (succs g) _) as [ss|] eqn:E; [|reflexivity].
  apply expand_ok in E; [|apply dadds_nodup; constructor]. rewrite (expand_trapped g (preds g) C HC); auto.
  exists c. split; auto. rewrite dadds_in. right. apply in_flat_map. exists s. split; [|exact I]. apply E. now apply succs_reach.
Qed.
Print Assumptions C229_back_cycle_limit.
Definition back_loop : pgraph := PGraph
  (fun n => match n with 0 => [3] | 1 => [2; 3] | 2 => [1] | _ => [] end)
  (fun n => match n with 3 => [0; 1] | 1 => [2] | 2 => [1] | _ => [] end)
  (fun n => match n with 1 | 2 => false | _ => true end) (fun _ => true) (fun _ => false).
Example C229_back_cycle_example : forall fuel, siblings back_loop fuel 0 = SLoop.
Proof.
  apply (C229_back_cycle_limit back_loop 0 (fun c => c = 1 \/ c = 2)).
  - intros c [-> | ->]; (split; [reflexivity|]); [exists 2|exists 1]; cbn; auto.
  - exists 3, 1. split; [exists 3; split; [now left|now constructor]|]. cbn. auto.
Qed.

(** The standard phases: run and the last phase of the uvm domain wait for each other; a graph
    with a schedule around a phase, in which 1 and 4 come before 5. *)
Definition sg : pgraph := PGraph
  (fun n => match n with 0 => [1; 2] | 1 => [5] | 2 => [3] | 3 => [4] | 4 => [6] | 6 => [5] | 5 => [7] | _ => [] end)
  (fun n => match n with 1 => [0] | 2 => [0] | 3 => [2] | 4 => [3] | 6 => [4] | 5 => [1; 6] | 7 => [5] | _ => [] end)
  (fun n => match n with 2 | 6 => false | _ => true end) (fun _ => true) (fun n => Nat.eqb n 7).
Example C229_example :
  siblings std_graph 9 5 = SOk [24] /\ siblings sg 9 1 = SOk [4] /\ siblings sg 9 4 = SOk [1] /\ siblings sg 9 3 = SOk [] /\
  Sibling sg 1 4 /\ ~ Sibling sg 3 4 /\
  (forall x y, isnode sg x = false -> In y (succs sg x) \/ In y (preds sg x) -> (if isnode sg y then 0 else 1) < if isnode sg x then 0 else 1) /\
  siblings (PGraph (fun n => match n with 0 => [1] | 1 => [2] | 2 => [1] | _ => [] end) (fun _ => []) (fun n => Nat.eqb n 0) (fun _ => true) (fun _ => false)) 9 0 = SLoop.
Proof.
  repeat (split; [vm_compute; reflexivity|]). split.
  - split; [|discriminate]. exists 5. split.
    + exists 5. split; [cbn; auto|]. now constructor.
    + exists 6. split; [cbn; auto|]. eapply via_pass; [reflexivity|cbn; auto|]. now constructor.
  - split.
    + intros ((s & (x & I & V) & (y & J & U)) & _). cbn in I. destruct I as [<-|[]]. inversion V as [? E|? ? ? E _ _]; subst; [|discriminate].
      cbn in J. destruct J as [<-|[]]. inversion U as [? E'|? ? ? E' _ _]; subst; discriminate.
    + split; [|vm_compute; reflexivity]. intros x y E I. rewrite E.
      do 7 (destruct x as [|x]; [cbn in *; try discriminate; destruct I as [[<-|[]]|[<-|[]]]; cbn; lia|]). cbn in E. discriminate.
Qed.
