(** Theorems about the activity of agents. *)
From Coq Require Import List Bool Arith ZArith Lia.
From Verif Require Import Prelude ResourceModel ResourceSpec ResourceProofs AutoModel AutoProofs AutoProofs2 AgtModel.
Import ListNotations.
Local Open Scope Z_scope.

Lemma fold_last {A B} (f : A -> B) (l : list A) x d : fold_left (fun _ r => f r) (l ++ [x]) d = f x.
Proof. rewrite fold_left_app. reflexivity. Qed.

(** the last of the sorted resources is the last of those as strong as the first *)
Lemma sort_last {R} (prec : R -> Z) r q u1 x u2 : r :: q = u1 ++ x :: u2 -> prec x = prec r ->
  (forall y, In y u2 -> prec y <> prec r) ->
  exists l, sort_by_precedence prec (r :: q) = l ++ [x].
Proof.
  intros E P N. pose proof (sort_order prec [] r q) as H. cbn [map In] in H. specialize (H (fun F => F)).
  cbn [app] in H. cbv zeta in H. destruct H as (a & b & S0 & _ & B). rewrite S0.
  assert (b = []) as ->. { destruct b as [|y b]; auto. elim (proj2 (proj1 (B y) (or_introl eq_refl))). }
  rewrite app_nil_r, E, filter_app. cbn [filter]. unfold of_prec. rewrite P, Z.eqb_refl.
  rewrite (filter_nil _ u2). 2:{ intros y I. apply Z.eqb_neq. auto. }
  exists (a ++ filter (fun r0 => prec r0 =? prec r) u1). now rewrite <- app_assoc.
Qed.

(** * C223 *)
(** An agent that finds no resource is active. *)
Theorem C223_default : forall smatch field s path,
  (forall id, In id (rtab s field) -> smatch (r_scope (ResourceModel.heap s id)) path = false) ->
  get_is_active (build_phase smatch field s path new_agent) = Some 1.
Proof.
  intros smatch field s path H. unfold get_is_active, build_phase, lookup_name.
  rewrite filter_nil by auto. reflexivity.
Qed.
Print Assumptions C223_default.

(** In every pool, whatever happened before: the resource read is, of the visible ones as
    strong as the first visible one of the table, the last. *)
Theorem C223_table : forall smatch field s path act t1 first t2 u1 id u2,
  let sees i := smatch (r_scope (ResourceModel.heap s i)) path in
  let prec i := r_prec (ResourceModel.heap s i) in
  rtab s field = t1 ++ first :: t2 -> sees first = true -> (forall i, In i t1 -> sees i = false) ->
  rtab s field = u1 ++ id :: u2 -> sees id = true -> prec id = prec first ->
  (forall i, In i u2 -> sees i = true -> prec i <> prec first) ->
  get_is_active (build_phase smatch field s path act) = r_val (ResourceModel.heap s id).
Proof.
  intros smatch field s path act t1 first t2 u1 id u2 sees prec E1 S1 N1 E2 S2 P N2.
  unfold get_is_active, build_phase, lookup_name. change (fun i => smatch (r_scope (ResourceModel.heap s i)) path) with sees.
  assert (Q1 : filter sees (rtab s field) = first :: filter sees t2).
  { rewrite E1, filter_app. rewrite (filter_nil _ t1) by auto. cbn [filter app]. now rewrite S1. }
  assert (Q2 : filter sees (rtab s field) = filter sees u1 ++ id :: filter sees u2).
  { rewrite E2, filter_app. cbn [filter]. now rewrite S2. }
  destruct (sort_last prec first (filter sees t2) (filter sees u1) id (filter sees u2)) as (l & E).
  - now rewrite <- Q1, Q2.
  - exact P.
  - intros y I. apply filter_In in I. destruct I. auto.
  - rewrite Q1. change (fun id => r_prec (ResourceModel.heap s id)) with prec. rewrite E. apply (fold_last (read s)).
Qed.
Print Assumptions C223_table.

Section Cfg.
Context (smatch : nat -> nat -> bool).
(** the resources seen, for a history of uvm_config_db.set *)
Lemma seen hist path f : let s := rrun smatch (map cset_rop hist) in
  lookup_name smatch s path f = map (idof s) (filter (applies smatch path f) (order hist)) /\
  forall e, In e (order hist) -> r_prec (ResourceModel.heap s (idof s e)) = c_prec e /\ r_val (ResourceModel.heap s (idof s e)) = Some (c_val e).
Proof.
  pose proof (cfg_run smatch hist) as [SO ON BO IN HE RT]. intros s.
  assert (HV : forall e, In e (order hist) -> let i := idof s e in
     r_scope (ResourceModel.heap s i) = c_inst e /\ r_prec (ResourceModel.heap s i) = c_prec e /\ r_val (ResourceModel.heap s i) = Some (c_val e)).
  { intros e He. apply in_order in He. unfold idof. pose proof (SO e (in_current _ _ He)). unfold s.
    destruct (cfg (rrun smatch (map cset_rop hist)) (c_key e)) as [i|] eqn:E; [|congruence].
    destruct (HE e i He E) as (_ & A & B & C & _). auto. }
  split; [|intros e He; apply (HV e He)].
  unfold lookup_name. rewrite RT, filter_map'. fold s. f_equal. unfold field_order.
  rewrite filter_filter. apply filter_ext_in. intros x Hx. unfold applies.
  destruct (HV x Hx) as (-> & _). reflexivity.
Qed.
End Cfg.

(** With uvm_config_db.set and no key set twice: the oldest of the applicable settings that
    are as strong as the newest applicable one decides. *)
Theorem C223_config : forall smatch hist path f act h1 e h2 g1 newest g2,
  NoDup (map c_key hist) ->
  hist = g1 ++ newest :: g2 -> applies smatch path f newest = true ->
  (forall x, In x g2 -> applies smatch path f x = false) ->
  hist = h1 ++ e :: h2 -> applies smatch path f e = true -> c_prec e = c_prec newest ->
  (forall x, In x h1 -> applies smatch path f x = true -> c_prec x <> c_prec newest) ->
  get_is_active (build_phase smatch f (rrun smatch (map cset_rop hist)) path act) = Some (c_val e).
Proof.
  intros smatch hist path f act h1 e h2 g1 newest g2 ND E1 A1 N1 E2 A2 P N2.
  destruct (seen smatch hist path f) as [L V]. set (s := rrun smatch (map cset_rop hist)) in *.
  unfold get_is_active, build_phase. rewrite L. rewrite (order_once hist ND) in *.
  assert (I1 : In newest (rev hist)) by (apply -> in_rev; rewrite E1; apply in_or_app; cbn; auto).
  assert (I2 : In e (rev hist)) by (apply -> in_rev; rewrite E2; apply in_or_app; cbn; auto).
  assert (Q1 : filter (applies smatch path f) (rev hist) = newest :: filter (applies smatch path f) (rev g1)).
  { rewrite E1, rev_app_distr. cbn [rev]. rewrite <- app_assoc, filter_app.
    rewrite (filter_nil _ (rev g2)) by (intros x I; apply N1; now apply in_rev). cbn [filter app]. now rewrite A1. }
  assert (Q2 : filter (applies smatch path f) (rev hist) = filter (applies smatch path f) (rev h2) ++ e :: filter (applies smatch path f) (rev h1)).
  { rewrite E2, rev_app_distr. cbn [rev]. rewrite <- app_assoc, filter_app. cbn [filter app]. now rewrite A2. }
  set (prec := fun id => r_prec (ResourceModel.heap s id)).
  destruct (sort_last prec (idof s newest) (map (idof s) (filter (applies smatch path f) (rev g1)))
              (map (idof s) (filter (applies smatch path f) (rev h2))) (idof s e) (map (idof s) (filter (applies smatch path f) (rev h1)))) as (l & E).
  - change (idof s newest :: map (idof s) (filter (applies smatch path f) (rev g1))) with (map (idof s) (newest :: filter (applies smatch path f) (rev g1))).
    rewrite <- Q1, Q2, map_app. reflexivity.
  - unfold prec. now rewrite (proj1 (V _ I1)), (proj1 (V _ I2)).
  - intros y I. apply in_map_iff in I. destruct I as (x & <- & I). apply filter_In in I. destruct I as [I A].
    assert (In x (rev hist)) as I'. { rewrite E2, rev_app_distr. cbn [rev]. rewrite <- app_assoc. apply in_or_app. right. now right. }
    unfold prec. rewrite (proj1 (V _ I')), (proj1 (V _ I1)). apply N2; auto. now apply in_rev.
  - rewrite Q1. cbn [map]. rewrite E, (fold_last (read s)). apply (proj2 (V _ I2)).
Qed.
Print Assumptions C223_config.

(** So it agrees with uvm_config_db.get when the newest applicable setting is stronger than
    all applicable ones before. *)
Theorem C223_agrees : forall smatch h1 e h2 path f act,
  NoDup (map c_key (h1 ++ e :: h2)) -> applies smatch path f e = true ->
  (forall x, In x h2 -> applies smatch path f x = false) ->
  (forall x, In x h1 -> applies smatch path f x = true -> c_prec x < c_prec e) ->
  let s := rrun smatch (map cset_rop (h1 ++ e :: h2)) in
  get_is_active (build_phase smatch f s path act) = Some (c_val e) /\
  config_get smatch s path f = Some (Some (c_val e)).
Proof.
  intros smatch h1 e h2 path f act ND A N P s. split.
  - apply (C223_config smatch _ path f act h1 e h2 h1 e h2); auto. intros x I Ax. specialize (P x I Ax). lia.
  - pose proof (config_get_exact smatch (h1 ++ e :: h2) path f) as G. fold s in G.
    destruct (config_get smatch s path f) as [ov|].
    + destruct G as (w & -> & l1 & l2 & E & W1 & W2). f_equal. f_equal. f_equal.
      rewrite (order_once _ ND), rev_app_distr in E. cbn [rev] in E. rewrite <- app_assoc, filter_app in E.
      rewrite (filter_nil _ (rev h2)) in E by (intros x I; apply N; now apply in_rev). cbn [filter app] in E. rewrite A in E.
      destruct l1 as [|y l1]; injection E as -> E; auto. exfalso. inversion W1 as [|? ? W _]; subst.
      assert (I : In w (filter (applies smatch path f) (rev h1))) by (rewrite E; apply in_or_app; cbn; auto).
      apply filter_In in I. destruct I as [I Aw]. apply in_rev in I. specialize (P w I Aw). lia.
    + rewrite (G e) in A; [discriminate|]. apply in_or_app. cbn. auto.
Qed.
Print Assumptions C223_agrees.

(** The only applicable setting decides, whatever its strength. *)
Corollary C223_single : forall smatch h1 e h2 path f act,
  NoDup (map c_key (h1 ++ e :: h2)) -> applies smatch path f e = true ->
  (forall x, In x (h1 ++ h2) -> applies smatch path f x = false) ->
  get_is_active (build_phase smatch f (rrun smatch (map cset_rop (h1 ++ e :: h2))) path act) = Some (c_val e).
Proof.
  intros smatch h1 e h2 path f act ND A N. apply C223_agrees; auto.
  - intros x I. apply N, in_or_app. auto.
  - intros x I Ax. rewrite N in Ax by (apply in_or_app; auto). discriminate.
Qed.
Print Assumptions C223_single.

(** In general it does not agree: when in build the test (depth 1) makes an agent passive and
    the environment beneath (depth 2) makes it active afterwards, uvm_config_db.get yields
    the value of the test, the agent is active. After build, of two settings of the same
    strength, uvm_config_db.get yields the newer one, the agent takes the older one. *)
Theorem C223_limit : exists smatch path f,
  (let s := rrun smatch (map cset_rop [CSet 0 1 true 9 f 0; CSet 1 2 true 1 f 1]) in
   config_get smatch s path f = Some (Some 0) /\ get_is_active (build_phase smatch f s path new_agent) = Some 1) /\
  (let s := rrun smatch (map cset_rop [CSet 0 1 false 9 f 0; CSet 1 2 false 1 f 1]) in
   config_get smatch s path f = Some (Some 1) /\ get_is_active (build_phase smatch f s path new_agent) = Some 0).
Proof.
  exists (fun p q => Nat.eqb p 9 || Nat.eqb p q)%bool, 1%nat, 0%nat. vm_compute. auto.
Qed.
Print Assumptions C223_limit.

(** The fourth setting is not for the agent; of the others the newest has strength 998, and the oldest
    of that strength is the first. *)
Example C223_example :
  let sm p q := (Nat.eqb p 9 || Nat.eqb p q)%bool in
  let h := [CSet 5 2 true 1 0 7; CSet 0 1 true 9 0 8; CSet 5 2 true 9 0 9; CSet 5 2 true 2 0 10] in
  NoDup (map c_key h) /\ map (applies sm 1 0) h = [true; true; true; false] /\ map c_prec h = [998; 999; 998; 998] /\
  get_is_active (build_phase sm 0 (rrun sm (map cset_rop h)) 1 new_agent) = Some 7 /\
  config_get sm (rrun sm (map cset_rop h)) 1 0 = Some (Some 8) /\
  get_is_active (build_phase sm 0 (rrun sm (map cset_rop h)) 3 new_agent) = Some 9.
Proof. cbv zeta. split. { cbn. repeat constructor; cbn; intuition discriminate. } vm_compute. auto. Qed.
