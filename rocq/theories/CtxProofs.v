(** Proofs about the context of sequence items. *)
From Coq Require Import ZArith List Bool Arith String Lia.
From Verif Require Import Prelude CtxModel CtxSpec.
Import ListNotations.
Local Open Scope nat_scope.

(** ** Frames *)
Definition core (o : obj) : bool * string * bool * option nat * option nat * Z := (o_seq o, o_name o, o_norand o, o_sqr o, o_par o, o_prio o).
Definition same (s t : cs) : Prop := size t = size s /\ forall x, core (ob t x) = core (ob s x).
Lemma same_refl s : same s s. Proof. split; auto. Qed.
Lemma same_trans s t u : same s t -> same t u -> same s u.
Proof. intros (A & B) (C & D). split; [congruence|]. intros x. now rewrite D. Qed.
Lemma same_put s x d : same s (put s x (with_depth (ob s x) d)).
Proof. split; [reflexivity|]. intros y. cbn. destruct (Nat.eq_dec y x) as [->|N]; [now rewrite upd_eq|now rewrite upd_neq]. Qed.
Lemma same_par s t x : same s t -> o_par (ob t x) = o_par (ob s x).
Proof. intros (_ & H). specialize (H x). unfold core in H. congruence. Qed.
Lemma same_sqr s t x : same s t -> o_sqr (ob t x) = o_sqr (ob s x).
Proof. intros (_ & H). specialize (H x). unfold core in H. congruence. Qed.
Lemma same_prio s t x : same s t -> o_prio (ob t x) = o_prio (ob s x).
Proof. intros (_ & H). specialize (H x). unfold core in H. congruence. Qed.
Lemma same_seq s t x : same s t -> o_seq (ob t x) = o_seq (ob s x).
Proof. intros (_ & H). specialize (H x). unfold core in H. congruence. Qed.
Lemma same_norand s t x : same s t -> o_norand (ob t x) = o_norand (ob s x).
Proof. intros (_ & H). specialize (H x). unfold core in H. congruence. Qed.
Lemma depth_same : forall k s x t d, depth k s x = Some (t, d) -> same s t.
Proof.
  induction k as [|k IH]; intros s x t d; cbn [depth]; [discriminate|].
  destruct (negb _); [intros [= <- <-]; apply same_refl|]. destruct (o_par (ob s x)) as [p|].
  - destruct (depth k s p) as [(s1, d1)|] eqn:E; [|discriminate]. intros [= <- <-]. eapply same_trans; [eapply IH; eauto|apply same_put].
  - intros [= <- <-]. apply same_put.
Qed.
Definition rest (o : obj) : bool * string * bool * Z := (o_seq o, o_name o, o_norand o, o_prio o).
Definition ctx_sqr (s : cs) (x : nat) (par sqr : option nat) : option nat :=
  match sqr, orelse par (o_par (ob s x)) with None, Some p => o_sqr (ob s p) | _, _ => sqr end.
(** the state of set_item_context before the depth *)
Definition joined (s : cs) (x : nat) (par sqr : option nat) : cs :=
  put s x (with_sqr (with_par (ob s x) (orelse par (o_par (ob s x)))) (ctx_sqr s x par sqr)).
Lemma upd_upd {B} (f : nat -> B) x v w y : upd (upd f x v) x w y = upd f x w y.
Proof. destruct (Nat.eq_dec y x) as [->|N]; [now rewrite !upd_eq|now rewrite !upd_neq]. Qed.
Lemma joined_x s x par sqr : ob (joined s x par sqr) x = with_sqr (with_par (ob s x) (orelse par (o_par (ob s x)))) (ctx_sqr s x par sqr).
Proof. unfold joined, put. cbn. now rewrite upd_eq. Qed.
Lemma joined_y s x par sqr y : y <> x -> ob (joined s x par sqr) y = ob s y.
Proof. intros N. unfold joined, put. cbn. now rewrite upd_neq. Qed.
(** equal up to the representation of the memory *)
Definition eqs (s t : cs) : Prop := size s = size t /\ forall x, ob s x = ob t x.
Lemma depth_eqs : forall k s t x, eqs s t -> match depth k s x, depth k t x with
  | Some (s', d), Some (t', d') => eqs s' t' /\ d = d' | None, None => True | _, _ => False end.
Proof.
  induction k as [|k IH]; intros s t x H; cbn [depth]; [exact I|]. destruct H as (H1 & H2). rewrite (H2 x).
  destruct (negb _); [split; [split; auto|reflexivity]|]. destruct (o_par (ob t x)) as [p|].
  - specialize (IH s t p (conj H1 H2)). destruct (depth k s p) as [(s1, d1)|], (depth k t p) as [(t1, d2)|]; try easy. destruct IH as ((I1 & I2) & ->).
    split; [|reflexivity]. split; [exact I1|]. intros y. cbn. rewrite (I2 x). destruct (Nat.eq_dec y x) as [->|N]; [now rewrite !upd_eq|now rewrite !upd_neq].
  - split; [|reflexivity]. split; [exact H1|]. intros y. cbn. destruct (Nat.eq_dec y x) as [->|N]; [now rewrite !upd_eq|now rewrite !upd_neq].
Qed.
(** what set_item_context does: the links first, then the depths only *)
Lemma context_spec s x par sqr t bad : set_context s x par sqr = (t, bad) ->
  exists j, eqs j (joined s x par sqr) /\
  match orelse par (o_par (ob s x)) with
  | None => bad = false /\ t = j
  | Some p => match get_depth j p with
              | None => bad = true /\ t = j
              | Some (u, d) => bad = false /\ t = put u x (with_depth (ob u x) (d + 1))
              end
  end.
Proof.
  unfold set_context. cbn zeta.
  set (s1 := match par with Some p => put s x (with_par (ob s x) (Some p)) | None => s end).
  assert (P1 : o_par (ob s1 x) = orelse par (o_par (ob s x))).
  { unfold s1. destruct par as [p|]; [|reflexivity]. cbn. now rewrite upd_eq. }
  assert (S1 : forall y, o_sqr (ob s1 y) = o_sqr (ob s y)).
  { intros y. unfold s1. destruct par as [p|]; [|reflexivity]. cbn. destruct (Nat.eq_dec y x) as [->|N]; [now rewrite upd_eq|now rewrite upd_neq]. }
  assert (J : eqs (put s1 x (with_sqr (ob s1 x) (match sqr, o_par (ob s1 x) with None, Some p => o_sqr (ob s1 p) | _, _ => sqr end))) (joined s x par sqr)).
  { split; [unfold s1; destruct par; reflexivity|]. intros y. rewrite P1. unfold joined. cbn [put ob]. destruct (Nat.eq_dec y x) as [->|N].
    - rewrite !upd_eq. unfold ctx_sqr. assert (E : with_sqr (ob s1 x) = with_sqr (with_par (ob s x) (orelse par (o_par (ob s x))))).
      { unfold s1. destruct par as [p|]; [cbn; now rewrite upd_eq|]. cbn. unfold with_par. destruct (ob s x); reflexivity. }
      rewrite E. destruct sqr; [reflexivity|]. destruct (orelse par (o_par (ob s x))); [now rewrite S1|reflexivity].
    - rewrite !upd_neq by exact N. unfold s1. destruct par; [|reflexivity]. cbn. now rewrite upd_neq. }
  set (j := put s1 x _) in *. intros H. exists j. split; [exact J|]. 
  assert (Pj : o_par (ob j x) = orelse par (o_par (ob s x))).
  { destruct J as (_ & J). rewrite J, joined_x. reflexivity. }
  rewrite Pj in H. destruct (orelse par (o_par (ob s x))) as [p|]; [|inversion H; auto].
  destruct (get_depth j p) as [(u, d)|]; inversion H; auto.
Qed.
Lemma context_frame s x par sqr t bad : set_context s x par sqr = (t, bad) ->
  size t = size s /\ (forall y, y <> x -> core (ob t y) = core (ob s y)) /\
  rest (ob t x) = rest (ob s x) /\ o_par (ob t x) = orelse par (o_par (ob s x)) /\ o_sqr (ob t x) = ctx_sqr s x par sqr.
Proof.
  intros H. destruct (context_spec _ _ _ _ _ _ H) as (j & (J1 & J2) & E).
  assert (Sj : same j t).
  { destruct (orelse par (o_par (ob s x))) as [p|]; [|destruct E as (_ & ->); apply same_refl].
    destruct (get_depth j p) as [(u, d)|] eqn:G; [|destruct E as (_ & ->); apply same_refl].
    destruct E as (_ & ->). eapply same_trans; [eapply depth_same; exact G|apply same_put]. }
  destruct Sj as (S1 & S2). split; [rewrite S1, J1; reflexivity|]. split.
  - intros y N. rewrite S2, J2, joined_y by exact N. reflexivity.
  - specialize (S2 x). rewrite J2, joined_x in S2. unfold core in S2. cbn in S2. unfold rest. injection S2 as -> -> -> -> -> ->. auto.
Qed.

(** ** Chains *)
Lemma chain_fun s x l : chain s x l -> forall l', chain s x l' -> l = l'.
Proof.
  induction 1 as [x E|x p l E C IH]; intros l' C'; inversion C' as [y E'|y p' m E' D]; subst; try congruence.
  rewrite E in E'. injection E' as <-. f_equal. auto.
Qed.
Lemma chain_ext s t x l : (forall y, y = x \/ In y l -> o_par (ob t y) = o_par (ob s y)) -> chain s x l -> chain t x l.
Proof.
  intros H C. induction C as [x E|x p l E C IH]; [apply chain_top; rewrite H; auto|].
  apply chain_up; [rewrite H; auto|]. apply IH. intros y [->|Hy]; apply H; cbn; auto.
Qed.
Lemma chain_mid s x a y b : chain s x (a ++ y :: b) -> chain s y b.
Proof.
  revert x. induction a as [|z a IH]; intros x C; inversion C as [|? ? ? E D]; subst; [exact D|]. eapply IH; eauto.
Qed.
Lemma chain_nodup s x l : chain s x l -> NoDup (x :: l).
Proof.
  intros C. induction C as [x E|x p l E C IH]; [repeat constructor; easy|]. constructor; [|exact IH].
  intros H. change (In x (p :: l)) in H. apply in_split in H as (a & b & H).
  assert (D : chain s x b) by (destruct a as [|z a]; injection H as -> ->; [exact C|eapply chain_mid; eauto]).
  assert (F := chain_fun _ _ _ D _ (chain_up _ _ _ _ E C)). rewrite F in H. apply (f_equal (@List.length nat)) in H. rewrite app_length in H. cbn in H. lia.
Qed.
Record good (s : cs) : Prop := Good {
  g_par : forall x p, o_par (ob s x) = Some p -> x < size s /\ p < size s;
  g_new : forall x, size s <= x -> o_depth (ob s x) = (-1)%Z }.
Lemma chain_known s x l : good s -> chain s x l -> forall y, In y l -> y < size s.
Proof. intros G C. induction C as [x E|x p l E C IH]; [easy|]. apply (g_par _ G) in E. intros y [<-|H]; [tauto|auto]. Qed.
Lemma chain_length s x l : good s -> x < size s -> chain s x l -> List.length l < size s.
Proof.
  intros G Hx C. assert (N := chain_nodup _ _ _ C). assert (L : incl (x :: l) (seq 0 (size s))).
  { intros y [<-|H]; apply in_seq; [lia|]. assert (X := chain_known _ _ _ G C y H). lia. }
  apply NoDup_incl_length in L; [|exact N]. rewrite seq_length in L. cbn in L. lia.
Qed.
(** ** Depth *)
Lemma depth_ends : forall k s x l, chain s x l -> List.length l < k -> exists t d, depth k s x = Some (t, d).
Proof.
  induction k as [|k IH]; intros s x l C H; [lia|]. cbn [depth]. destruct (negb _); [eauto|].
  destruct C as [x E|x p l E C]; rewrite E; [eauto|]. cbn in H. destruct (IH s p l C) as (t & d & ->); [lia|eauto].
Qed.
Definition right (s : cs) (x : nat) (l : list nat) : Prop := o_depth (ob s x) = (-1)%Z \/ o_depth (ob s x) = Z.of_nat (S (List.length l)).
Lemma depth_right (E : nat -> Prop) : forall k s x l t d, chain s x l -> ~ E x -> (forall y, In y l -> ~ E y) ->
  (forall y m, chain s y m -> ~ E y -> right s y m) -> depth k s x = Some (t, d) ->
  d = Z.of_nat (S (List.length l)) /\ (forall y m, chain t y m -> ~ E y -> right t y m).
Proof.
  induction k as [|k IH]; intros s x l t d C Ex El R; cbn [depth]; [discriminate|].
  assert (Fix : forall s l, chain s x l -> (forall y m, chain s y m -> ~ E y -> right s y m) ->
    forall y m, chain (put s x (with_depth (ob s x) (Z.of_nat (S (List.length l))))) y m -> ~ E y -> right (put s x (with_depth (ob s x) (Z.of_nat (S (List.length l))))) y m).
  { clear. intros s l C R y m D Ey. assert (D' : chain s y m) by (eapply chain_ext; [|exact D]; intros z _; symmetry; apply same_par, same_put).
    unfold right. cbn. destruct (Nat.eq_dec y x) as [->|N]; [rewrite upd_eq; cbn; right; now rewrite (chain_fun _ _ _ C _ D')|rewrite upd_neq by exact N; now apply R]. }
  destruct (o_depth (ob s x) =? -1)%Z eqn:Q; cbn [negb].
  - destruct (o_par (ob s x)) as [p|] eqn:P.
    + destruct (depth k s p) as [(s1, d1)|] eqn:Dp; [|discriminate]. intros [= <- <-].
      inversion C as [? P'|? p' m P' C']; subst; rewrite P in P'; [discriminate|]. injection P' as <-.
      destruct (IH s p m s1 d1 C') as (-> & R1); [apply El; now left|intros y Hy; apply El; now right|exact R|exact Dp|]. split; [cbn [List.length]; lia|]. 
      replace (Z.of_nat (S (List.length m)) + 1)%Z with (Z.of_nat (S (List.length (p :: m)))) by (cbn [List.length]; lia). apply Fix; [|exact R1].
      eapply chain_ext; [|exact C]. intros y _. eapply same_par, depth_same, Dp.
    + intros [= <- <-]. inversion C as [? P'|? p' m P' C']; subst; [|congruence]. split; [reflexivity|]. apply (Fix s []); assumption.
  - intros [= <- <-]. split; [|exact R]. destruct (R x l C Ex) as [H|H]; [rewrite H in Q; discriminate|exact H].
Qed.
(** ** The sequences as a tree *)
Lemma chain_in s y l x : chain s y l -> In x l -> exists z, o_par (ob s z) = Some x.
Proof. intros C. induction C as [y E|y p l E C IH]; [easy|]. intros [->|H]; [eauto|auto]. Qed.
Lemma good_same s t : good s -> same s t -> (forall x, size s <= x -> o_depth (ob t x) = (-1)%Z) -> good t.
Proof.
  intros (G1 & G2) H D. split.
  - intros x p. rewrite (same_par _ _ x H). destruct H as (-> & _). apply G1.
  - destruct H as (-> & _). exact D.
Qed.
Lemma depth_fresh : forall k s x t d, depth k s x = Some (t, d) -> good s -> x < size s -> forall y, size s <= y -> o_depth (ob t y) = (-1)%Z.
Proof.
  induction k as [|k IH]; intros s x t d; cbn [depth]; [discriminate|]. intros H G Hx y Hy.
  destruct (negb _); [injection H as <- <-; now apply (g_new _ G)|]. destruct (o_par (ob s x)) as [p|] eqn:P.
  - destruct (depth k s p) as [(s1, d1)|] eqn:E; [|discriminate]. injection H as <- <-. cbn. rewrite upd_neq by lia. eapply IH; eauto. apply (g_par _ G) in P. tauto.
  - injection H as <- <-. cbn. rewrite upd_neq by lia. now apply (g_new _ G).
Qed.
Lemma joined_good s x par sqr j : good s -> x < size s -> (forall p, par = Some p -> p < size s) -> eqs j (joined s x par sqr) -> good j.
Proof.
  intros G Hx Hp (J1 & J2). split.
  - intros y p. rewrite J2, J1. cbn [joined put size]. destruct (Nat.eq_dec y x) as [->|N].
    + rewrite joined_x. cbn. destruct par as [p0|]; cbn; [intros [= <-]; split; auto|]. apply (g_par _ G).
    + rewrite joined_y by exact N. apply (g_par _ G).
  - intros y. rewrite J1, J2. cbn [joined put size]. intros Hy. rewrite joined_y by lia. now apply (g_new _ G).
Qed.
Lemma context_good s x par sqr t bad : good s -> x < size s -> (forall p, par = Some p -> p < size s) -> set_context s x par sqr = (t, bad) -> good t.
Proof.
  intros G Hx Hp H. destruct (context_spec _ _ _ _ _ _ H) as (j & J & E). assert (Gj := joined_good _ _ _ _ _ G Hx Hp J).
  destruct (orelse par (o_par (ob s x))) as [p|] eqn:P; [|destruct E as (_ & ->); exact Gj].
  destruct (get_depth j p) as [(u, d)|] eqn:D; [|destruct E as (_ & ->); exact Gj]. destruct E as (_ & ->).
  assert (Kp : p < size j).
  { destruct J as (J1 & _). rewrite J1. cbn. destruct par as [p0|]; cbn in P; [injection P as <-; auto|apply (g_par _ G) in P; tauto]. }
  assert (Su := depth_same _ _ _ _ _ D). eapply good_same; [exact Gj|eapply same_trans; [exact Su|apply same_put]|].
  intros y Hy. cbn. destruct J as (J1 & _). cbn in J1. rewrite upd_neq by lia. eapply depth_fresh; eauto.
Qed.
Lemma good_new s k n r : good s -> good (new s (fresh k n r)).
Proof.
  intros G. split; unfold new; cbn [size ob].
  - intros x p. destruct (Nat.eq_dec x (size s)) as [->|N]; [rewrite upd_eq; discriminate|]. rewrite upd_neq by exact N. intros H. apply (g_par _ G) in H. lia.
  - intros x Hx. rewrite upd_neq by lia. apply (g_new _ G). lia.
Qed.
Lemma good_put s x o : good s -> x < size s -> (forall p, o_par o = Some p -> p < size s) -> good (put s x o).
Proof.
  intros G Hx Hp. split; unfold put; cbn [size ob].
  - intros y p. destruct (Nat.eq_dec y x) as [->|N]; [rewrite upd_eq; auto|]. rewrite upd_neq by exact N. apply (g_par _ G).
  - intros y Hy. rewrite upd_neq by lia. now apply (g_new _ G).
Qed.
Lemma known_lt s x : known s x = true -> x < size s.
Proof. apply Nat.ltb_lt. Qed.
Lemma isq_lt s x : isq s x = true -> x < size s.
Proof. unfold isq. intros H. apply andb_true_iff in H as (H & _). now apply known_lt. Qed.
Lemma isp_lt s p : isp s p = true -> forall x, p = Some x -> x < size s.
Proof. intros H x ->. now apply isq_lt. Qed.
Lemma good_keep s x f : good s -> x < size s -> (forall o, o_par (f o) = o_par o) -> good (put s x (f (ob s x))).
Proof. intros G Hx Hf. apply good_put; [exact G|exact Hx|]. rewrite Hf. intros p Hp. apply (g_par _ G) in Hp. tauto. Qed.
Lemma start_good s x sqr par prio : good s -> x < size s -> (forall p, par = Some p -> p < size s) -> good (fst (start s x sqr par prio)).
Proof.
  intros G Hx Hp. unfold start. destruct (set_context s x par sqr) as (t, bad) eqn:E. assert (Gt := context_good _ _ _ _ _ _ G Hx Hp E).
  destruct bad; [exact Gt|]. destruct (prio <? -1)%Z; [exact Gt|]. cbn zeta. cbn [fst]. apply context_frame in E as (E & _).
  apply (good_keep t x (fun o => with_prio o _)); [exact Gt|lia|reflexivity].
Qed.
Lemma item_good s q x prio sqr mid : good s -> x < size s -> q < size s -> good (fst (item_with s q x prio sqr mid)).
Proof.
  intros G Hx Hq. unfold item_with, start_item. destruct (orelse _ _) as [t0|]; [|exact G].
  destruct (set_context s x (Some q) (Some t0)) as (t, bad) eqn:E.
  assert (Gt : good t) by (eapply context_good; [exact G|exact Hx| |exact E]; intros p [= <-]; exact Hq).
  destruct bad; exact Gt.
Qed.
Lemma step_good s l : good s -> good (fst (step s l)).
Proof.
  intros G. unfold step. destruct (exist s l) eqn:X; [|exact G]. cbn [negb]. destruct l; cbn [exist] in X; try (apply andb_true_iff in X as (X1 & X2)).
  - now apply good_new.
  - destruct (set_context s x par sqr) as (t, bad) eqn:E. cbn [fst]. exact (context_good _ _ _ _ _ _ G (known_lt _ _ X1) (isp_lt _ _ X2) E).
  - cbn [fst]. apply good_put; [exact G|now apply known_lt|]. cbn. intros p0 Hp0. eapply isp_lt; eauto.
  - cbn [fst]. apply (good_keep s x (fun o => with_sqr o sqr)); [exact G|now apply known_lt|reflexivity].
  - cbn [fst]. apply (good_keep s x (fun o => with_depth o d)); [exact G|now apply known_lt|reflexivity].
  - cbn [fst]. apply (good_keep s x (fun o => with_prio o p)); [exact G|now apply known_lt|reflexivity].
  - destruct (get_depth s x) as [(t, d)|] eqn:D; [|exact G]. cbn [fst]. eapply good_same; [exact G|eapply depth_same; exact D|]. eapply depth_fresh; [exact D|exact G|now apply known_lt].
  - apply start_good; [exact G|now apply isq_lt|exact (isp_lt _ _ X2)].
  - apply item_good; [exact G|now apply known_lt|now apply isq_lt].
  - apply isq_lt in X1. apply known_lt in X2. unfold do_on. cbn zeta. assert (Gn := good_new s made "SEQ_OR_ITEM" false G).
    destruct (set_context (new s _) (size s) (Some q) sqr) as (t, bad) eqn:E.
    assert (Gt : good t) by (eapply context_good; [exact Gn| | |exact E]; [cbn; lia|intros p [= <-]; cbn; lia]).
    apply context_frame in E as (E & _). cbn in E. destruct bad; [exact Gt|]. destruct made.
    + destruct (negb _); [exact Gt|]. assert (Gs := start_good t x sqr (Some q) prio Gt). destruct (start t x sqr (Some q) prio) as (u, o). cbn [fst] in *. apply Gs; [lia|intros p [= <-]; lia].
    + apply item_good; [exact Gt|lia|lia].
  - apply isq_lt in X1. apply known_lt in X2. unfold send_mac. destruct (o_seq (ob s x)); [apply start_good|apply item_good]; auto. now intros p [= <-].
  - apply known_lt in X. unfold execute. cbn zeta. apply item_good; cbn [put new size]; [|lia|lia].
    apply (good_keep _ _ (fun o => with_sqr o (Some sqr))); [|cbn; lia|reflexivity]. apply good_put; [|cbn; lia|cbn; intros p [= <-]; lia].
    apply (good_keep _ _ (fun o => with_sqr o (Some sqr))); [|cbn; lia|reflexivity]. now apply good_new.
Qed.
Lemma good_init : good init.
Proof. split; cbn; [discriminate|reflexivity]. Qed.
Lemma run_good ls : good (fst (run ls)).
Proof. unfold run. exact (run_machine_inv step (fun s _ => good s) (fun s _ l => step_good s l) ls init [] good_init). Qed.

(** every object has a chain and right depths *)
Record tree (s : cs) : Prop := Tree {
  t_good : good s;
  t_chain : forall x, exists l, chain s x l;
  t_right : forall x l, chain s x l -> right s x l }.
Lemma tree_init : tree init.
Proof. split; [apply good_init| |]; [intros x; exists []; now constructor|]. intros x l _. now left. Qed.
Lemma same_chain s t x l : same s t -> chain s x l -> chain t x l.
Proof. intros H. apply chain_ext. intros y _. now apply same_par. Qed.
Lemma same_sym s t : same s t -> same t s.
Proof. intros (A & B). split; auto. Qed.
(** the links alone *)
Lemma join_links s x p j : tree s -> x <> p -> (o_par (ob s x) = Some p \/ leaf s x) ->
  (forall y, o_par (ob j y) = if Nat.eq_dec y x then Some p else o_par (ob s y)) ->
  (forall y l, y <> x -> chain s y l -> chain j y l) /\ (exists l, chain s p l /\ chain j p l /\ ~ In x l /\ chain j x (p :: l)) /\
  (forall y l, y <> x -> chain j y l -> chain s y l).
Proof.
  intros T N M J. 
  assert (A : forall y l, y <> x -> chain s y l -> chain j y l).
  { intros y l Hy C. destruct M as [M|M].
    - eapply chain_ext; [|exact C]. intros z _. rewrite J. destruct (Nat.eq_dec z x) as [->|]; congruence.
    - eapply chain_ext; [|exact C]. intros z Hz. rewrite J. destruct (Nat.eq_dec z x) as [->|]; [|reflexivity]. destruct Hz as [<-|Hz]; [easy|]. destruct (chain_in _ _ _ _ C Hz) as (w & Hw). now destruct (M w). }
  split; [exact A|]. assert (B : forall l, chain s p l -> ~ In x l).
  { intros l C Hx. destruct M as [M|M].
    - assert (D : chain s x (p :: l)) by now constructor. apply chain_nodup in D. inversion D as [|? ? D1 _]; subst. apply D1. now right.
    - destruct (chain_in _ _ _ _ C Hx) as (w & Hw). now destruct (M w). }
  split.
  - destruct (t_chain _ T p) as (l & C). exists l. assert (C' : chain j p l) by (apply A; [congruence|exact C]). repeat split; auto. constructor; [|exact C']. rewrite J. now destruct (Nat.eq_dec x x).
  - intros y l Hy C. destruct (t_chain _ T y) as (m & D). rewrite (chain_fun _ _ _ C _ (A y m Hy D)). exact D.
Qed.
Lemma linked_tree s x par sqr j t bad : tree s -> x < size s -> (forall p, par = Some p -> p < size s) ->
  (forall p, par = Some p -> may_join s x p) -> good t -> eqs j (joined s x par sqr) ->
  match orelse par (o_par (ob s x)) with
  | None => bad = false /\ t = j
  | Some p => match get_depth j p with
              | None => bad = true /\ t = j
              | Some (u, d) => bad = false /\ t = put u x (with_depth (ob u x) (d + 1))
              end
  end -> bad = false /\ tree t.
Proof.
  intros T Hx Hp M Gt J E. assert (Gj := joined_good _ _ _ _ _ (t_good _ T) Hx Hp J). destruct J as (J1 & J2).
  destruct (orelse par (o_par (ob s x))) as [p|] eqn:P.
  - assert (N : x <> p /\ (o_par (ob s x) = Some p \/ leaf s x)).
    { destruct par as [p0|]; cbn in P; [injection P as <-; destruct (M _ eq_refl); auto|]. split; [|auto]. intros <-.
      destruct (t_chain _ T x) as (l & C). assert (N := chain_nodup _ _ _ C). destruct C as [|x p l Q C]; [congruence|]. rewrite P in Q. injection Q as <-. inversion N as [|? ? N1 _]; subst. apply N1. now left. }
    destruct N as (N & N2). assert (Jp : forall y, o_par (ob j y) = if Nat.eq_dec y x then Some p else o_par (ob s y)).
    { intros y. rewrite J2. destruct (Nat.eq_dec y x) as [->|Ny]; [rewrite joined_x; cbn; exact P|now rewrite joined_y]. }
    destruct (join_links s x p j T N N2 Jp) as (A & (l & C & Cj & Nl & Cx) & B).
    assert (Kp : p < size j) by (apply (g_par _ Gj x p); rewrite Jp; now destruct (Nat.eq_dec x x)).
    assert (L := chain_length _ _ _ Gj Kp Cj). destruct (depth_ends (S (size j)) j p l Cj) as (u & d & D); [lia|].
    unfold get_depth in E. rewrite D in E. destruct E as (-> & ->). split; [reflexivity|].
    assert (R : forall y m, chain j y m -> ~ y = x -> right j y m).
    { intros y m Cy Ny. unfold right. rewrite J2, joined_y by exact Ny. apply (t_right _ T). now apply B. }
    destruct (depth_right (fun y => y = x) _ _ _ _ _ _ Cj (fun e => N (eq_sym e)) (fun y Hy e => Nl (eq_ind y (fun z => In z l) Hy x e)) R D) as (-> & R').
    assert (Su := depth_same _ _ _ _ _ D). assert (St := same_trans _ _ _ Su (same_put u x (Z.of_nat (S (List.length l)) + 1))).
    split; [exact Gt| |].
    + intros y. destruct (Nat.eq_dec y x) as [->|Ny]; [exists (p :: l); eapply same_chain; eauto|]. destruct (t_chain _ T y) as (m & Cy). exists m. eapply same_chain; [exact St|]. now apply A.
    + intros y m Cy. unfold right. cbn. destruct (Nat.eq_dec y x) as [->|Ny].
      * rewrite upd_eq. cbn [with_depth o_depth]. right. assert (Q : p :: l = m) by (eapply chain_fun; [exact Cx|eapply same_chain; [apply same_sym; exact St|exact Cy]]). subst m. cbn [List.length]. lia.
      * rewrite upd_neq by exact Ny. apply R'; [|exact Ny]. eapply same_chain; [apply same_sym, same_put|exact Cy].
  - destruct E as (-> & ->). split; [reflexivity|]. assert (Q : forall y, o_par (ob j y) = o_par (ob s y)).
    { intros y. rewrite J2. destruct (Nat.eq_dec y x) as [->|Ny]; [rewrite joined_x; cbn; destruct par; cbn in *; congruence|now rewrite joined_y]. }
    split; [exact Gt| |].
    + intros y. destruct (t_chain _ T y) as (m & Cy). exists m. eapply chain_ext; [|exact Cy]. auto.
    + intros y m Cy. assert (Cs : chain s y m) by (eapply chain_ext; [|exact Cy]; auto). assert (R := t_right _ T y m Cs). unfold right in *. rewrite J2.
      destruct (Nat.eq_dec y x) as [->|Ny]; [rewrite joined_x; cbn; exact R|now rewrite joined_y].
Qed.
Lemma context_tree s x par sqr t bad : tree s -> x < size s -> (forall p, par = Some p -> p < size s) ->
  (forall p, par = Some p -> may_join s x p) -> set_context s x par sqr = (t, bad) -> bad = false /\ tree t.
Proof.
  intros T Hx Hp M H. assert (Gt := context_good _ _ _ _ _ _ (t_good _ T) Hx Hp H).
  destruct (context_spec _ _ _ _ _ _ H) as (j & J & E). eapply linked_tree; eauto.
Qed.
Lemma tree_keep s x f : tree s -> x < size s -> (forall o, o_par (f o) = o_par o) -> (forall o, o_depth (f o) = o_depth o) -> tree (put s x (f (ob s x))).
Proof.
  intros T Hx F1 F2. assert (Q : forall y, o_par (ob (put s x (f (ob s x))) y) = o_par (ob s y)).
  { intros y. cbn. destruct (Nat.eq_dec y x) as [->|N]; [rewrite upd_eq; apply F1|now rewrite upd_neq]. }
  split; [apply good_keep; [apply T|exact Hx|exact F1]| |].
  - intros y. destruct (t_chain _ T y) as (m & Cy). exists m. eapply chain_ext; [|exact Cy]. auto.
  - intros y m Cy. assert (Cs : chain s y m) by (eapply chain_ext; [|exact Cy]; auto). assert (R := t_right _ T y m Cs). unfold right in *. cbn.
    destruct (Nat.eq_dec y x) as [->|Ny]; [rewrite upd_eq, F2; exact R|now rewrite upd_neq].
Qed.
Lemma new_par s k n r y : good s -> o_par (ob (new s (fresh k n r)) y) = o_par (ob s y).
Proof.
  intros G. cbn. destruct (Nat.eq_dec y (size s)) as [->|N]; [|now rewrite upd_neq]. rewrite upd_eq. cbn.
  destruct (o_par (ob s (size s))) as [p|] eqn:E; [|reflexivity]. apply (g_par _ G) in E. lia.
Qed.
Lemma tree_new s k n r : tree s -> tree (new s (fresh k n r)).
Proof.
  intros T. assert (G := t_good _ T). split; [now apply good_new| |].
  - intros y. destruct (t_chain _ T y) as (m & Cy). exists m. eapply chain_ext; [|exact Cy]. intros z _. now apply new_par.
  - intros y m Cy. assert (Cs : chain s y m) by (eapply chain_ext; [|exact Cy]; intros z _; symmetry; now apply new_par). assert (R := t_right _ T y m Cs). unfold right in *. cbn.
    destruct (Nat.eq_dec y (size s)) as [->|Ny]; [rewrite upd_eq; now left|now rewrite upd_neq].
Qed.
Lemma leaf_new s k n r x : good s -> leaf s x -> leaf (new s (fresh k n r)) x.
Proof. intros G L y. rewrite new_par by exact G. apply L. Qed.
Lemma new_leaf s k n r : good s -> leaf (new s (fresh k n r)) (size s).
Proof. intros G y. rewrite new_par by exact G. intros E. apply (g_par _ G) in E. lia. Qed.
Lemma start_tree s x sqr par prio : tree s -> x < size s -> (forall p, par = Some p -> p < size s) -> (forall p, par = Some p -> may_join s x p) ->
  tree (fst (start s x sqr par prio)) /\ ~ In ORec (snd (start s x sqr par prio)).
Proof.
  intros T Hx Hp M. unfold start. destruct (set_context s x par sqr) as (t, bad) eqn:E.
  destruct (context_tree _ _ _ _ _ _ T Hx Hp M E) as (-> & Tt). apply context_frame in E as (E & _).
  destruct (prio <? -1)%Z; [split; [exact Tt|intros [|[]]; discriminate]|]. cbn zeta. cbn [fst snd].
  split; [|intros [|[]]; discriminate]. apply (tree_keep t x (fun o => with_prio o _)); [exact Tt|lia|reflexivity|reflexivity].
Qed.
Lemma item_tree s q x prio sqr mid : tree s -> x < size s -> q < size s -> may_join s x q -> ~ In ORec mid ->
  tree (fst (item_with s q x prio sqr mid)) /\ ~ In ORec (snd (item_with s q x prio sqr mid)).
Proof.
  intros T Hx Hq M Hm. unfold item_with, start_item. destruct (orelse _ _) as [t0|]; [|split; [exact T|intros [|[]]; discriminate]].
  destruct (set_context s x (Some q) (Some t0)) as (t, bad) eqn:E.
  destruct (context_tree s x (Some q) (Some t0) t bad) as (-> & Tt); auto; [now intros p [= <-]|now intros p [= <-]|].
  split; [exact Tt|]. cbn [snd app]. intros [H|H]; [discriminate|]. apply in_app_or in H as [H|H]; [now apply Hm|].
  revert H. unfold finish_item. destruct (o_sqr (ob t x)); intros [|[]]; discriminate.
Qed.
Lemma rand_norec x ok : ~ In ORec (rand x ok).
Proof. destruct ok; cbn; intuition discriminate. Qed.
Lemma step_tree s l : tree s -> tidy s l -> tree (fst (step s l)) /\ ~ In ORec (snd (step s l)).
Proof.
  intros T M. assert (G := t_good _ T). unfold step. destruct (exist s l) eqn:X; [|split; [exact T|easy]]. cbn [negb].
  destruct l; cbn [exist] in X; cbn [tidy] in M; try (apply andb_true_iff in X as (X1 & X2)); try easy.
  - split; [now apply tree_new|easy].
  - destruct (set_context s x par sqr) as (t, bad) eqn:E. destruct (context_tree s x par sqr t bad) as (-> & Tt); auto; [now apply known_lt|exact (isp_lt _ _ X2)|intros p ->; exact M].
  - split; [|easy]. apply (tree_keep s x (fun o => with_sqr o sqr)); [exact T|now apply known_lt|reflexivity|reflexivity].
  - split; [|easy]. apply (tree_keep s x (fun o => with_prio o p)); [exact T|now apply known_lt|reflexivity|reflexivity].
  - apply known_lt in X. destruct (t_chain _ T x) as (l & C). assert (L := chain_length _ _ _ G X C). destruct (depth_ends (S (size s)) s x l C) as (t & d & D); [lia|].
    unfold get_depth. rewrite D. split; [|intros [|[]]; discriminate]. cbn [fst]. assert (Sa := depth_same _ _ _ _ _ D).
    destruct (depth_right (fun _ => False) _ _ _ _ _ _ C (fun e => e) (fun _ _ e => e) (fun y m Cy _ => t_right _ T y m Cy) D) as (_ & R).
    split; [eapply good_same; [exact G|exact Sa|eapply depth_fresh; eauto]| |].
    + intros y. destruct (t_chain _ T y) as (m & Cy). exists m. eapply same_chain; eauto.
    + intros y m Cy. apply R; [exact Cy|easy].
  - apply start_tree; auto; [now apply isq_lt|exact (isp_lt _ _ X2)|intros p ->; exact M].
  - apply item_tree; auto; [now apply known_lt|now apply isq_lt].
  - apply isq_lt in X1. apply known_lt in X2. unfold do_on. cbn zeta. assert (Tn := tree_new s made "SEQ_OR_ITEM" false T).
    destruct (set_context (new s _) (size s) (Some q) sqr) as (t, bad) eqn:E.
    assert (F := context_frame _ _ _ _ _ _ E). destruct F as (E1 & E2 & _ & E3 & _). cbn [new size] in E1. cbn [orelse] in E3.
    assert (H1 : size s < size (new s (fresh made "SEQ_OR_ITEM" false))) by (cbn; lia).
    assert (H2 : forall p, Some q = Some p -> p < size (new s (fresh made "SEQ_OR_ITEM" false))) by (intros p [= <-]; cbn; lia).
    assert (H3 : forall p, Some q = Some p -> may_join (new s (fresh made "SEQ_OR_ITEM" false)) (size s) p).
    { intros p [= <-]. split; [lia|]. right. now apply new_leaf. }
    destruct (context_tree _ _ _ _ _ _ Tn H1 H2 H3 E) as (-> & Tt).
    assert (P : forall y, y <> size s -> o_par (ob t y) = o_par (ob s y)).
    { intros y Ny. specialize (E2 y Ny). assert (H : o_par (ob t y) = o_par (ob (new s (fresh made "SEQ_OR_ITEM" false)) y)) by (unfold core in E2; congruence). rewrite H. now apply new_par. }
    assert (Mt : may_join t x q).
    { destruct M as (N & [M|M]); (split; [exact N|]); [left; rewrite P by lia; exact M|]. destruct (Nat.eq_dec q x) as [->|Nq]; [easy|]. right. intros y Hy.
      destruct (Nat.eq_dec y (size s)) as [->|Ny]; [|rewrite P in Hy by exact Ny; now apply (M y)].
      rewrite E3 in Hy. congruence. }
    destruct made.
    + destruct (negb _); [split; [exact Tt|intros [|[]]; discriminate]|]. destruct (start_tree t x sqr (Some q) prio Tt) as (A & B); [lia|intros p [= <-]; lia|now intros p [= <-]|].
      destruct (start t x sqr (Some q) prio) as (u, o). cbn [fst snd] in *. split; [exact A|]. intros H. apply in_app_or in H as [H|H]; [|now apply B]. destruct (o_norand (ob t x)); [easy|now apply rand_norec in H].
    + apply item_tree; auto; [lia|lia|apply rand_norec].
  - apply isq_lt in X1. apply known_lt in X2. unfold send_mac. destruct (o_seq (ob s x)); [apply start_tree|apply item_tree]; auto; now intros p [= <-].
  - apply known_lt in X. unfold execute. cbn zeta.
    set (s1 := put (new s (fresh true "uvm_sequence" false)) x (with_sqr (ob (new s (fresh true "uvm_sequence" false)) x) (Some sqr))).
    set (s2 := put s1 x (with_par (ob s1 x) (Some (size s)))). set (s3 := put s2 (size s) (with_sqr (ob s2 (size s)) (Some sqr))).
    assert (T1 : tree s1) by (apply (tree_keep _ _ (fun o => with_sqr o (Some sqr))); [now apply tree_new|cbn; lia|reflexivity|reflexivity]).
    set (s3' := put s1 (size s) (with_sqr (ob s1 (size s)) (Some sqr))).
    assert (T3 : tree s3') by (apply (tree_keep _ _ (fun o => with_sqr o (Some sqr))); [exact T1|cbn; lia|reflexivity|reflexivity]).
    assert (O1 : ob s3 x = with_par (ob s3' x) (Some (size s))).
    { unfold s3, s3', s2. cbn [put ob]. rewrite upd_neq, upd_eq, upd_neq by lia. reflexivity. }
    assert (O2 : forall y, y <> x -> ob s3 y = ob s3' y).
    { intros y N. unfold s3, s3', s2. cbn [put ob]. rewrite (upd_neq (ob s1) x (size s)) by lia. destruct (Nat.eq_dec y (size s)) as [->|Ny]; [now rewrite !upd_eq|]. now rewrite !upd_neq. }
    assert (G3 : good s3).
    { apply (good_keep _ _ (fun o => with_sqr o (Some sqr))); [|cbn; lia|reflexivity]. apply good_put; [apply T1|cbn; lia|cbn; intros p [= <-]; lia]. }
    assert (Q : o_sqr (ob s3 x) = Some sqr) by (rewrite O1; unfold s3', s1; cbn; rewrite upd_neq, upd_eq by lia; reflexivity).
    assert (Lx : leaf s3' x).
    { intros y. unfold s3'. cbn [put ob]. assert (U : forall z, o_par (ob s1 z) = o_par (ob s z)).
      { intros z. unfold s1. cbn [put ob]. destruct (Nat.eq_dec z x) as [->|Nz]; [rewrite upd_eq; cbn [with_sqr o_par]|rewrite upd_neq by exact Nz]; now apply new_par. }
      destruct (Nat.eq_dec y (size s)) as [->|Ny]; [rewrite upd_eq; cbn [with_sqr o_par]|rewrite upd_neq by exact Ny]; rewrite U; apply M. }
    unfold item_with, start_item. rewrite Q. cbn [orelse].
    destruct (set_context s3 x (Some (size s)) (Some sqr)) as (t, bad) eqn:E.
    assert (Gt : good t) by (eapply context_good; [exact G3| | |exact E]; [cbn; lia|intros p [= <-]; cbn; lia]).
    destruct (context_spec _ _ _ _ _ _ E) as (j & J & F). cbn [orelse] in F.
    assert (J' : eqs j (joined s3' x (Some (size s)) (Some sqr))).
    { destruct J as (J1 & J2). split; [exact J1|]. intros y. rewrite J2. destruct (Nat.eq_dec y x) as [->|Ny]; [rewrite !joined_x, O1; reflexivity|]. rewrite !joined_y by exact Ny. now apply O2. }
    destruct (linked_tree s3' x (Some (size s)) (Some sqr) j t bad T3) as (-> & Tt); auto; [cbn; lia|intros p [= <-]; cbn; lia|intros p [= <-]; split; [lia|now right]|].
    split; [exact Tt|]. cbn [snd app]. intros [H|H]; [discriminate|]. revert H. unfold finish_item. destruct (o_sqr (ob t x)); intros [|[]]; discriminate.
Qed.
Lemma tidy_tree ls : forall s, tree s -> tidy_run s ls -> tree (fst (run_machine step s ls)) /\ ~ In ORec (snd (run_machine step s ls)).
Proof.
  induction ls as [|l ls IH]; intros s T R; cbn [run_machine]; [split; [exact T|easy]|]. destruct R as (R1 & R2).
  destruct (step_tree s l T R1) as (A & B). destruct (step s l) as (t, o) eqn:E. cbn [fst snd] in *.
  destruct (IH t A R2) as (C & D). destruct (run_machine step t ls) as (u, o2). cbn [fst snd] in *. split; [exact C|]. intros H. apply in_app_or in H. tauto.
Qed.

(** ** Which sequencer *)
Lemma orelse_first a b c : first_of a b c (orelse a (orelse b c)).
Proof. destruct a; [now apply first_a|]. destruct b; [now apply first_b|now apply first_c]. Qed.
Lemma first_orelse a b c r : first_of a b c r -> r = orelse a (orelse b c).
Proof. intros [t ->|t -> ->| -> ->]; reflexivity. Qed.
Lemma context_ends s x q r l : good s -> x < size s -> q < size s -> chain s q l -> ~ In x (q :: l) -> snd (set_context s x (Some q) r) = false.
Proof.
  intros G Hx Hq C N. destruct (set_context s x (Some q) r) as (t, bad) eqn:E. destruct (context_spec _ _ _ _ _ _ E) as (j & J & F). cbn [orelse] in F.
  assert (Gj : good j) by (eapply joined_good; [exact G|exact Hx| |exact J]; now intros p [= <-]).
  assert (Cj : chain j q l).
  { eapply chain_ext; [|exact C]. intros y Hy. destruct J as (_ & J2). rewrite J2, joined_y; [reflexivity|]. intros ->. apply N. cbn. destruct Hy; [left; congruence|now right]. }
  destruct (depth_ends (S (size j)) j q l Cj) as (u & d & D).
  { assert (L := chain_length j q l Gj). destruct J as (J1 & _). cbn in J1. rewrite J1 in *. specialize (L Hq Cj). lia. }
  unfold get_depth in F. rewrite D in F. now destruct F as (-> & _).
Qed.
Lemma item_spec s q x prio sqr mid : good s -> x < size s -> q < size s ->
  (exists l, chain s q l /\ ~ In x (q :: l)) ->
  match orelse sqr (orelse (o_sqr (ob s x)) (o_sqr (ob s q))) with
  | None => item_with s q x prio sqr mid = (s, [OFatal])
  | Some t => snd (item_with s q x prio sqr mid) = OReq q x t (if (prio <? 0)%Z then o_prio (ob s q) else prio) :: mid ++ [OSend q x t] /\
              o_sqr (ob (fst (item_with s q x prio sqr mid)) x) = Some t
  end.
Proof.
  intros G Hx Hq (l & C & N). unfold item_with, start_item. destruct (orelse sqr _) as [t|]; [|reflexivity].
  assert (B := context_ends s x q (Some t) l G Hx Hq C N). destruct (set_context s x (Some q) (Some t)) as (u, bad) eqn:E. cbn [snd] in B. subst bad.
  apply context_frame in E as (_ & E2 & _ & _ & E5). cbn [ctx_sqr] in E5. cbn [fst snd app]. unfold finish_item. rewrite E5.
  assert (Hn : q <> x) by (intros ->; apply N; now left). specialize (E2 q Hn). assert (P : o_prio (ob u q) = o_prio (ob s q)) by (unfold core in E2; congruence). rewrite P. auto.
Qed.
(** what a request or an item sent to the driver names is the sequencer the item has *)
Definition sends (o : out) (x t : nat) : Prop :=
  match o with OReq _ y r _ => y = x -> r = t | OSend _ y r => y = x -> r = t | OStart y r _ => y = x -> r = Some t | _ => True end.
Lemma context_sqr s x par sqr t bad y r : set_context s x par sqr = (t, bad) -> o_sqr (ob s y) = Some r -> (x = y -> sqr = Some r) -> o_sqr (ob t y) = Some r.
Proof.
  intros E Q H. apply context_frame in E as (_ & E2 & _ & _ & E5). destruct (Nat.eq_dec y x) as [->|N].
  - rewrite E5. rewrite (H eq_refl). reflexivity.
  - specialize (E2 y N). unfold core in E2. congruence.
Qed.
Lemma start_sqr s x sqr par prio y r : o_sqr (ob s y) = Some r -> (x = y -> sqr = Some r) ->
  o_sqr (ob (fst (start s x sqr par prio)) y) = Some r /\ Forall (fun o => sends o y r) (snd (start s x sqr par prio)).
Proof.
  intros Q H. unfold start. destruct (set_context s x par sqr) as (t, bad) eqn:E. assert (Qt := context_sqr _ _ _ _ _ _ _ _ E Q H).
  destruct bad; [split; [exact Qt|repeat constructor]|]. destruct (prio <? -1)%Z; [split; [exact Qt|repeat constructor]|]. cbn zeta. cbn [fst snd].
  set (pr := if (prio <? 0)%Z then _ else _). split.
  - cbn. destruct (Nat.eq_dec y x) as [->|N]; [rewrite upd_eq; exact Qt|now rewrite upd_neq].
  - constructor; [|constructor]. cbn. intros ->. rewrite upd_eq. exact Qt.
Qed.
Lemma item_sqr s q x prio sqr mid y r : o_sqr (ob s y) = Some r -> (x = y -> sqr = None) -> Forall (fun o => sends o y r) mid ->
  o_sqr (ob (fst (item_with s q x prio sqr mid)) y) = Some r /\ Forall (fun o => sends o y r) (snd (item_with s q x prio sqr mid)).
Proof.
  intros Q H Hm. unfold item_with, start_item. destruct (orelse sqr (orelse (o_sqr (ob s x)) (o_sqr (ob s q)))) as [t0|] eqn:O; [|split; [exact Q|repeat constructor]].
  assert (H' : x = y -> t0 = r) by (intros ->; rewrite (H eq_refl), Q in O; cbn in O; congruence).
  destruct (set_context s x (Some q) (Some t0)) as (t, bad) eqn:E. assert (Qt : o_sqr (ob t y) = Some r) by (eapply context_sqr; [exact E|exact Q|intros e; now rewrite (H' e)]).
  destruct bad; [split; [exact Qt|repeat constructor]|]. cbn [fst snd app]. split; [exact Qt|]. constructor; [cbn; exact H'|]. apply Forall_app. split; [exact Hm|].
  unfold finish_item. destruct (o_sqr (ob t x)) as [t1|] eqn:Q1; repeat constructor. cbn. intros ->. congruence.
Qed.
Lemma rand_sends x ok y r : Forall (fun o => sends o y r) (rand x ok).
Proof. destruct ok; repeat constructor. Qed.
Lemma new_sqr s k n b y r : y < size s -> o_sqr (ob s y) = Some r -> o_sqr (ob (new s (fresh k n b)) y) = Some r.
Proof. intros H Q. cbn. rewrite upd_neq by lia. exact Q. Qed.
Lemma put_sqr s x f y r : (forall o, o_sqr (f o) = o_sqr o) -> o_sqr (ob s y) = Some r -> o_sqr (ob (put s x (f (ob s x))) y) = Some r.
Proof. intros F Q. cbn. destruct (Nat.eq_dec y x) as [->|N]; [rewrite upd_eq, F; exact Q|now rewrite upd_neq]. Qed.
Lemma step_size s l : size s <= size (fst (step s l)).
Proof.
  assert (S0 : forall s x sqr par prio, size (fst (start s x sqr par prio)) = size s).
  { clear. intros s x sqr par prio. unfold start. destruct (set_context s x par sqr) as (t, bad) eqn:E. apply context_frame in E as (E & _). destruct bad; [exact E|]. destruct (prio <? -1)%Z; exact E. }
  assert (I0 : forall s q x prio sqr mid, size (fst (item_with s q x prio sqr mid)) = size s).
  { clear. intros s q x prio sqr mid. unfold item_with, start_item. destruct (orelse _ _) as [t0|]; [|reflexivity]. destruct (set_context s x (Some q) (Some t0)) as (t, bad) eqn:E. apply context_frame in E as (E & _). destruct bad; exact E. }
  unfold step. destruct (exist s l); [|reflexivity]. cbn [negb]. destruct l; try (cbn; lia).
  - destruct (set_context s x par sqr) as (t, bad) eqn:E. apply context_frame in E as (E & _). cbn. lia.
  - destruct (get_depth s x) as [(t, d)|] eqn:D; [|reflexivity]. apply depth_same in D as (D & _). cbn. lia.
  - now rewrite S0.
  - now rewrite I0.
  - unfold do_on. cbn zeta. destruct (set_context (new s _) (size s) (Some q) sqr) as (t, bad) eqn:E. apply context_frame in E as (E & _). cbn in E. destruct bad; [cbn; lia|]. destruct made.
    + destruct (negb _); [cbn; lia|]. assert (X := S0 t x sqr (Some q) prio). destruct (start t x sqr (Some q) prio) as (u, o). cbn in *. lia.
    + rewrite I0. lia.
  - unfold send_mac. destruct (o_seq (ob s x)); [now rewrite S0|now rewrite I0].
  - unfold execute. cbn zeta. rewrite I0. cbn. lia.
Qed.
Lemma step_sqr s l y r : y < size s -> o_sqr (ob s y) = Some r -> ~ names_sequencer l y ->
  o_sqr (ob (fst (step s l)) y) = Some r /\ Forall (fun o => sends o y r) (snd (step s l)).
Proof.
  intros Hy Q N. unfold step. destruct (exist s l) eqn:X; [|split; [exact Q|constructor]]. cbn [negb]. destruct l; cbn [names_sequencer] in N.
  - split; [now apply new_sqr|constructor].
  - destruct (set_context s x par sqr) as (t, bad) eqn:E. split; [eapply context_sqr; [exact E|exact Q|now intros ->]|]. cbn [snd]. destruct bad; repeat constructor.
  - split; [|constructor]. apply (put_sqr s x (fun o => with_par o par)); auto.
  - split; [|constructor]. cbn. rewrite upd_neq by congruence. exact Q.
  - split; [|constructor]. apply (put_sqr s x (fun o => with_depth o d)); auto.
  - split; [|constructor]. apply (put_sqr s x (fun o => with_prio o p)); auto.
  - destruct (get_depth s x) as [(t, d)|] eqn:D; [|split; [exact Q|repeat constructor]]. split; [|repeat constructor]. cbn [fst]. rewrite (same_sqr _ _ y (depth_same _ _ _ _ _ D)). exact Q.
  - apply start_sqr; [exact Q|now intros ->].
  - apply item_sqr; [exact Q| |constructor]. intros ->. destruct sqr; [now destruct N|reflexivity].
  - unfold do_on. cbn zeta. destruct (set_context (new s _) (size s) (Some q) sqr) as (t, bad) eqn:E.
    assert (Qt : o_sqr (ob t y) = Some r) by (eapply context_sqr; [exact E|now apply new_sqr|intros <-; lia]).
    destruct bad; [split; [exact Qt|repeat constructor]|]. destruct made.
    + destruct (negb _); [split; [exact Qt|repeat constructor]|]. destruct (start_sqr t x sqr (Some q) prio y r Qt) as (A & B); [now intros ->|]. destruct (start t x sqr (Some q) prio) as (u, o). cbn [fst snd] in *.
      split; [exact A|]. apply Forall_app. split; [destruct (o_norand (ob t x)); [constructor|apply rand_sends]|exact B].
    + apply item_sqr; [exact Qt|reflexivity|apply rand_sends].
  - unfold send_mac. destruct (o_seq (ob s x)); [apply start_sqr; [exact Q|now intros ->]|apply item_sqr; [exact Q|reflexivity|constructor]].
  - cbn [exist] in X. apply known_lt in X. unfold execute. cbn zeta. apply item_sqr; [|reflexivity|constructor].
    cbn. destruct (Nat.eq_dec y (size s)) as [->|N1]; [lia|]. rewrite upd_neq by exact N1. rewrite !upd_neq by congruence. exact Q.
Qed.
Lemma run_sqr ls : forall s y r, y < size s -> o_sqr (ob s y) = Some r -> (forall l, In l ls -> ~ names_sequencer l y) ->
  o_sqr (ob (fst (run_machine step s ls)) y) = Some r /\ Forall (fun o => sends o y r) (snd (run_machine step s ls)).
Proof.
  induction ls as [|l ls IH]; intros s y r Hy Q N; cbn [run_machine]; [split; [exact Q|constructor]|].
  destruct (step_sqr s l y r Hy Q) as (A & B); [apply N; now left|]. assert (Z := step_size s l). destruct (step s l) as (t, o). cbn [fst snd] in *.
  destruct (IH t y r) as (C & D); [lia|exact A|intros l' Hl; apply N; now right|]. destruct (run_machine step t ls) as (u, o2). cbn [fst snd] in *. split; [exact C|]. apply Forall_app. auto.
Qed.
(** objects that have a sequencer exist *)
Lemma step_real s l : (forall x, size s <= x -> o_sqr (ob s x) = None) -> (forall x, size (fst (step s l)) <= x -> o_sqr (ob (fst (step s l)) x) = None).
Proof.
  assert (C0 : forall s x par sqr t bad, x < size s -> set_context s x par sqr = (t, bad) -> (forall y, size s <= y -> o_sqr (ob s y) = None) -> size t = size s /\ forall y, size s <= y -> o_sqr (ob t y) = None).
  { clear. intros s x par sqr t bad Hx E H. apply context_frame in E as (E & E2 & _). split; [exact E|]. intros y Hy. assert (N : y <> x) by lia. specialize (E2 y N). unfold core in E2. rewrite <- (H y Hy). congruence. }
  assert (S0 : forall s x sqr par prio, x < size s -> (forall y, size s <= y -> o_sqr (ob s y) = None) -> forall y, size (fst (start s x sqr par prio)) <= y -> o_sqr (ob (fst (start s x sqr par prio)) y) = None).
  { clear -C0. intros s x sqr par prio Hx H y. unfold start. destruct (set_context s x par sqr) as (t, bad) eqn:E. destruct (C0 _ _ _ _ _ _ Hx E H) as (Z & K). destruct bad; [cbn; rewrite Z; apply K|]. destruct (prio <? -1)%Z; cbn; rewrite Z; intros Hy; [now apply K|]. rewrite upd_neq by lia. now apply K. }
  assert (I0 : forall s q x prio sqr mid, x < size s -> (forall y, size s <= y -> o_sqr (ob s y) = None) -> forall y, size (fst (item_with s q x prio sqr mid)) <= y -> o_sqr (ob (fst (item_with s q x prio sqr mid)) y) = None).
  { clear -C0. intros s q x prio sqr mid Hx H y. unfold item_with, start_item. destruct (orelse _ _) as [t0|]; [|apply H]. destruct (set_context s x (Some q) (Some t0)) as (t, bad) eqn:E. destruct (C0 _ _ _ _ _ _ Hx E H) as (Z & K). destruct bad; cbn; rewrite Z; apply K. }
  intros H. unfold step. destruct (exist s l) eqn:X; [|exact H]. cbn [negb]. destruct l; cbn [exist] in X; try (apply andb_true_iff in X as (X1 & X2)).
  - intros y. cbn. intros Hy. rewrite upd_neq by lia. apply H. lia.
  - destruct (set_context s x par sqr) as (t, bad) eqn:E. destruct (C0 _ _ _ _ _ _ (known_lt _ _ X1) E H) as (Z & K). cbn. rewrite Z. exact K.
  - intros y. cbn. apply known_lt in X1. intros Hy. rewrite upd_neq by lia. now apply H.
  - intros y. cbn. apply known_lt in X. intros Hy. rewrite upd_neq by lia. now apply H.
  - intros y. cbn. apply known_lt in X. intros Hy. rewrite upd_neq by lia. now apply H.
  - intros y. cbn. apply known_lt in X1. intros Hy. rewrite upd_neq by lia. now apply H.
  - destruct (get_depth s x) as [(t, d)|] eqn:D; [|exact H]. intros y. cbn [fst]. assert (Sa := depth_same _ _ _ _ _ D). rewrite (same_sqr _ _ y Sa). destruct Sa as (-> & _). apply H.
  - apply S0; [now apply isq_lt|exact H].
  - apply I0; [now apply known_lt|exact H].
  - apply isq_lt in X1. apply known_lt in X2. unfold do_on. cbn zeta. destruct (set_context (new s _) (size s) (Some q) sqr) as (t, bad) eqn:E.
    apply C0 in E as (Z & K); [|cbn; lia|cbn; intros y Hy; rewrite upd_neq by lia; apply H; lia]. cbn in Z. assert (K' : forall y, size t <= y -> o_sqr (ob t y) = None) by (rewrite Z; exact K). destruct bad; [exact K'|]. destruct made.
    + destruct (negb _); [exact K'|]. assert (Hx : x < size t) by lia. assert (A := S0 t x sqr (Some q) prio Hx K'). destruct (start t x sqr (Some q) prio) as (u, o). exact A.
    + apply I0; [lia|exact K'].
  - apply isq_lt in X1. apply known_lt in X2. unfold send_mac. destruct (o_seq (ob s x)); [apply S0|apply I0]; auto.
  - apply known_lt in X. unfold execute. cbn zeta. apply I0; [cbn; lia|]. intros y. cbn. intros Hy. rewrite !upd_neq by lia. apply H. lia.
Qed.
Lemma run_real ls x t : o_sqr (ob (fst (run ls)) x) = Some t -> x < size (fst (run ls)).
Proof.
  intros Q. destruct (Nat.lt_ge_cases x (size (fst (run ls)))) as [H|H]; [exact H|].
  assert (I := run_machine_inv step (fun s _ => forall x, size s <= x -> o_sqr (ob s x) = None) (fun s _ l => step_real s l) ls init [] (fun _ _ => eq_refl)). cbn beta in I.
  unfold run in *. rewrite I in Q by exact H. discriminate.
Qed.

(** ** Depths after a context is set *)
Definition nonneg (s : cs) : Prop := forall x, (-1 <= o_depth (ob s x))%Z.
Lemma depth_nonneg : forall k s x t d, depth k s x = Some (t, d) -> nonneg s -> nonneg t /\ (0 <= d)%Z /\ o_depth (ob t x) = d.
Proof.
  assert (P : forall s x d, nonneg s -> (-1 <= d)%Z -> nonneg (put s x (with_depth (ob s x) d))).
  { intros s x d H Hd y. cbn. destruct (Nat.eq_dec y x) as [->|N]; [now rewrite upd_eq|rewrite upd_neq by exact N; apply H]. }
  induction k as [|k IH]; intros s x t d; cbn [depth]; [discriminate|]. intros E H. 
  destruct (o_depth (ob s x) =? -1)%Z eqn:Q; cbn [negb] in E.
  - destruct (o_par (ob s x)) as [p|].
    + destruct (depth k s p) as [(u, d1)|] eqn:D; [|discriminate]. injection E as <- <-. destruct (IH _ _ _ _ D H) as (A & B & _). split; [apply P; [exact A|lia]|]. split; [lia|]. cbn. now rewrite upd_eq.
    + injection E as <- <-. split; [apply P; [exact H|lia]|]. split; [lia|]. cbn. now rewrite upd_eq.
  - injection E as <- <-. split; [exact H|]. split; [|reflexivity]. specialize (H x). apply Z.eqb_neq in Q. lia.
Qed.
Lemma depth_cached s x d : o_depth (ob s x) = d -> (0 <= d)%Z -> get_depth s x = Some (s, d).
Proof. intros H Hd. unfold get_depth. cbn [depth]. rewrite H. destruct (d =? -1)%Z eqn:E; [apply Z.eqb_eq in E; lia|reflexivity]. Qed.
Lemma context_nonneg s x par sqr t bad : nonneg s -> set_context s x par sqr = (t, bad) -> nonneg t.
Proof.
  intros H E. destruct (context_spec _ _ _ _ _ _ E) as (j & (J1 & J2) & F).
  assert (Hj : nonneg j) by (intros y; rewrite J2; destruct (Nat.eq_dec y x) as [->|N]; [rewrite joined_x; cbn; apply H|rewrite joined_y by exact N; apply H]).
  destruct (orelse par (o_par (ob s x))) as [p|]; [|now destruct F as (_ & ->)]. destruct (get_depth j p) as [(u, d)|] eqn:D; [|now destruct F as (_ & ->)]. destruct F as (_ & ->).
  destruct (depth_nonneg _ _ _ _ _ D Hj) as (A & B & _). intros y. cbn. destruct (Nat.eq_dec y x) as [->|N]; [rewrite upd_eq; cbn; lia|rewrite upd_neq by exact N; apply A].
Qed.
Lemma context_depths s x p sqr t : nonneg s -> x <> p -> set_context s x (Some p) sqr = (t, false) ->
  exists d, get_depth t p = Some (t, d) /\ get_depth t x = Some (t, (d + 1)%Z).
Proof.
  intros H N E. destruct (context_spec _ _ _ _ _ _ E) as (j & (J1 & J2) & F). cbn [orelse] in F.
  assert (Hj : nonneg j) by (intros y; rewrite J2; destruct (Nat.eq_dec y x) as [->|Ny]; [rewrite joined_x; cbn; apply H|rewrite joined_y by exact Ny; apply H]).
  destruct (get_depth j p) as [(u, d)|] eqn:D; [|now destruct F]. destruct F as (_ & ->). destruct (depth_nonneg _ _ _ _ _ D Hj) as (A & B & C). exists d. split.
  - apply depth_cached; [|exact B]. cbn. rewrite upd_neq by congruence. exact C.
  - apply depth_cached; [|lia]. cbn. now rewrite upd_eq.
Qed.
Lemma start_nonneg s x sqr par prio : nonneg s -> nonneg (fst (start s x sqr par prio)).
Proof.
  intros H. unfold start. destruct (set_context s x par sqr) as (t, bad) eqn:E. assert (Ht := context_nonneg _ _ _ _ _ _ H E). destruct bad; [exact Ht|]. destruct (prio <? -1)%Z; [exact Ht|].
  intros y. cbn. destruct (Nat.eq_dec y x) as [->|N]; [rewrite upd_eq; cbn; apply Ht|rewrite upd_neq by exact N; apply Ht].
Qed.
Lemma item_nonneg s q x prio sqr mid : nonneg s -> nonneg (fst (item_with s q x prio sqr mid)).
Proof.
  intros H. unfold item_with, start_item. destruct (orelse _ _) as [t0|]; [|exact H]. destruct (set_context s x (Some q) (Some t0)) as (t, bad) eqn:E. assert (Ht := context_nonneg _ _ _ _ _ _ H E). destruct bad; exact Ht.
Qed.
Lemma put_nonneg s x f : nonneg s -> (forall o, o_depth (f o) = o_depth o) -> nonneg (put s x (f (ob s x))).
Proof. intros H F y. cbn. destruct (Nat.eq_dec y x) as [->|N]; [rewrite upd_eq, F; apply H|rewrite upd_neq by exact N; apply H]. Qed.
Lemma new_nonneg s k n r : nonneg s -> nonneg (new s (fresh k n r)).
Proof. intros H y. cbn. destruct (Nat.eq_dec y (size s)) as [->|N]; [rewrite upd_eq; cbn; lia|rewrite upd_neq by exact N; apply H]. Qed.
Lemma step_nonneg s l : nonneg s -> (forall x d, l = LDep x d -> (-1 <= d)%Z) -> nonneg (fst (step s l)).
Proof.
  intros H Hl. unfold step. destruct (exist s l); [|exact H]. cbn [negb]. destruct l.
  - now apply new_nonneg.
  - destruct (set_context s x par sqr) as (t, bad) eqn:E. eapply context_nonneg; eauto.
  - apply (put_nonneg s x (fun o => with_par o par)); auto.
  - apply (put_nonneg s x (fun o => with_sqr o sqr)); auto.
  - intros y. cbn. specialize (Hl _ _ eq_refl). destruct (Nat.eq_dec y x) as [->|N]; [rewrite upd_eq; exact Hl|rewrite upd_neq by exact N; apply H].
  - apply (put_nonneg s x (fun o => with_prio o p)); auto.
  - destruct (get_depth s x) as [(t, d)|] eqn:D; [|exact H]. apply (depth_nonneg _ _ _ _ _ D H).
  - now apply start_nonneg.
  - now apply item_nonneg.
  - unfold do_on. cbn zeta. destruct (set_context (new s _) (size s) (Some q) sqr) as (t, bad) eqn:E. assert (Ht := context_nonneg _ _ _ _ _ _ (new_nonneg s _ _ _ H) E).
    destruct bad; [exact Ht|]. destruct made; [|now apply item_nonneg]. destruct (negb _); [exact Ht|]. assert (A := start_nonneg t x sqr (Some q) prio Ht). destruct (start t x sqr (Some q) prio) as (u, o). exact A.
  - unfold send_mac. destruct (o_seq (ob s x)); [now apply start_nonneg|now apply item_nonneg].
  - unfold execute. cbn zeta. apply item_nonneg. apply (put_nonneg _ _ (fun o => with_sqr o (Some sqr))); auto. apply (put_nonneg _ _ (fun o => with_par o (Some (size s)))); auto. apply (put_nonneg _ _ (fun o => with_sqr o (Some sqr))); auto. now apply new_nonneg.
Qed.
Lemma run_nonneg ls : (forall x d, In (LDep x d) ls -> (-1 <= d)%Z) -> nonneg (fst (run ls)).
Proof.
  intros H. assert (F : Forall (fun l => forall x d, l = LDep x d -> (-1 <= d)%Z) ls) by (apply Forall_forall; intros l Hl x d ->; eapply H; eauto).
  apply (run_machine_inv_ok step _ (fun s _ => nonneg s) (fun s _ l K P => step_nonneg s l P K) ls init [] F). intros x. cbn. lia.
Qed.

(** ** Priorities *)
Definition all100 (o : out) : Prop := match o with OStart _ _ p => p = 100%Z | OReq _ _ _ p => p = 100%Z | _ => True end.
(** [y]: has the priority 100 *)
Definition has100 (s : cs) (y : nat) : Prop := o_prio (ob s y) = 100%Z.
Lemma context_prio s x par sqr t bad y : set_context s x par sqr = (t, bad) -> o_prio (ob t y) = o_prio (ob s y).
Proof.
  intros E. apply context_frame in E as (_ & E2 & E3 & _). destruct (Nat.eq_dec y x) as [->|N].
  - unfold rest in E3. congruence.
  - specialize (E2 y N). unfold core in E2. congruence.
Qed.
Lemma start_prio s x sqr par : (match par with None => True | Some p => has100 s p end) ->
  Forall all100 (snd (start s x sqr par (-1))) /\ (forall y, has100 s y -> has100 (fst (start s x sqr par (-1))) y) /\
  (forall y q, In (OStart y q 100) (snd (start s x sqr par (-1))) -> has100 (fst (start s x sqr par (-1))) y).
Proof.
  intros H. unfold start. destruct (set_context s x par sqr) as (t, bad) eqn:E. assert (Ht := fun y => context_prio _ _ _ _ _ _ y E). destruct bad; cbn [fst snd].
  - split; [repeat constructor|]. split; [intros y; unfold has100; now rewrite Ht|]. intros y q [|[]]; discriminate.
  - change (-1 <? -1)%Z with false. change (-1 <? 0)%Z with true. cbv iota zeta. cbn [fst snd].
    assert (P : match par with None => 100%Z | Some p => o_prio (ob t p) end = 100%Z) by (destruct par as [p|]; [rewrite Ht; exact H|reflexivity]). rewrite P.
    split; [repeat constructor|]. split.
    + intros y Hy. unfold has100. cbn. destruct (Nat.eq_dec y x) as [->|N]; [now rewrite upd_eq|rewrite upd_neq by exact N; rewrite Ht; exact Hy].
    + intros y q [[= <- <-]|[]]. unfold has100. cbn. now rewrite upd_eq.
Qed.
Lemma item_prio s q x sqr mid : has100 s q -> Forall all100 mid -> (forall y r p, ~ In (OStart y r p) mid) ->
  Forall all100 (snd (item_with s q x (-1) sqr mid)) /\ (forall y, has100 s y -> has100 (fst (item_with s q x (-1) sqr mid)) y) /\
  (forall y r p, ~ In (OStart y r p) (snd (item_with s q x (-1) sqr mid))).
Proof.
  intros H Hm Hn. unfold item_with, start_item. destruct (orelse _ _) as [t0|]; cbn [fst snd].
  - destruct (set_context s x (Some q) (Some t0)) as (t, bad) eqn:E. assert (Ht := fun y => context_prio _ _ _ _ _ _ y E). destruct bad; cbn [fst snd].
    + split; [repeat constructor|]. split; [intros y; unfold has100; now rewrite Ht|]. intros y r p [|[]]; discriminate.
    + change (-1 <? 0)%Z with true. cbv iota. rewrite Ht, H. split; [|split; [intros y; unfold has100; now rewrite Ht|]].
      * cbn [app]. constructor; [reflexivity|]. apply Forall_app. split; [exact Hm|]. unfold finish_item. destruct (o_sqr (ob t x)); repeat constructor.
      * intros y r p. cbn [app]. intros [F|F]; [discriminate|]. apply in_app_or in F as [F|F]; [now apply Hn in F|]. revert F. unfold finish_item. destruct (o_sqr (ob t x)); intros [|[]]; discriminate.
  - split; [repeat constructor|]. split; [auto|]. intros y r p [|[]]; discriminate.
Qed.
Lemma rand_all x ok : Forall all100 (rand x ok) /\ forall y r p, ~ In (OStart y r p) (rand x ok).
Proof. destruct ok; cbn; (split; [repeat constructor|]); intros; intuition discriminate. Qed.
Definition plain_inv (s : cs) (tr : list out) : Prop := Forall all100 tr /\ forall y q, In (OStart y q 100) tr -> has100 s y /\ y < size s.
Lemma start_only s x sqr par prio y q p : In (OStart y q p) (snd (start s x sqr par prio)) -> y = x.
Proof. unfold start. destruct (set_context s x par sqr) as (t, [|]); cbn [snd]; [intros [|[]]; discriminate|]. destruct (prio <? -1)%Z; cbn [snd]; intros [H|[]]; [discriminate|]. now injection H. Qed.
Lemma plain_step s tr l : plain_inv s tr -> plain_prio tr l -> plain_inv (fst (step s l)) (tr ++ snd (step s l)).
Proof.
  intros (A & B) P. assert (Z := step_size s l).
  assert (K : Forall all100 (snd (step s l)) /\ (forall y, y < size s -> has100 s y -> has100 (fst (step s l)) y) /\ (forall y q, In (OStart y q 100) (snd (step s l)) -> has100 (fst (step s l)) y /\ y < size s)).
  { assert (Nop : forall t, (forall y, y < size s -> has100 s y -> has100 t y) -> forall o, Forall all100 o -> (forall y r p, ~ In (OStart y r p) o) ->
       Forall all100 (snd (t, o)) /\ (forall y, y < size s -> has100 s y -> has100 (fst (t, o)) y) /\ (forall y q, In (OStart y q 100) (snd (t, o)) -> has100 (fst (t, o)) y /\ y < size s)).
    { intros t Ht o Ho No. cbn [fst snd]. repeat split; auto; exfalso; eapply No; eauto. }
    assert (Kp : forall x f, (forall o, o_prio (f o) = o_prio o) -> forall y, y < size s -> has100 s y -> has100 (put s x (f (ob s x))) y).
    { intros x f F y _ H. unfold has100. cbn. destruct (Nat.eq_dec y x) as [->|N]; [rewrite upd_eq, F; exact H|rewrite upd_neq by exact N; exact H]. }
    unfold step. destruct (exist s l) eqn:X; [|apply Nop; [auto|constructor|easy]]. cbn [negb]. destruct l; cbn [plain_prio] in P; cbn [exist] in X.
    - apply Nop; [|constructor|easy]. intros y Hy H. unfold has100. cbn. rewrite upd_neq by lia. exact H.
    - destruct (set_context s x par sqr) as (t, bad) eqn:E. apply Nop; [|destruct bad; repeat constructor|intros y r p; destruct bad; [intros [|[]]; discriminate|easy]].
      intros y _. unfold has100. now rewrite (context_prio _ _ _ _ _ _ y E).
    - apply Nop; [|constructor|easy]. now apply (Kp x (fun o => with_par o par)).
    - apply Nop; [|constructor|easy]. now apply (Kp x (fun o => with_sqr o sqr)).
    - apply Nop; [|constructor|easy]. now apply (Kp x (fun o => with_depth o d)).
    - easy.
    - destruct (get_depth s x) as [(t, d)|] eqn:D; (apply Nop; [|repeat constructor|intros y r p [|[]]; discriminate]); auto.
      intros y _. unfold has100. now rewrite (same_prio _ _ y (depth_same _ _ _ _ _ D)).
    - destruct P as (-> & P). destruct (start_prio s x sqr par) as (S1 & S2 & S3); [destruct par as [p|]; [destruct P as (r & P); now apply B in P|exact I]|].
      split; [exact S1|]. split; [auto|]. intros y r H. split; [eauto|]. apply start_only in H as ->. apply andb_true_iff in X as (X & _). now apply isq_lt.
    - destruct P as (-> & r & P). destruct (item_prio s q x sqr []) as (S1 & S2 & S3); [now apply B in P|constructor|easy|]. split; [exact S1|]. split; [auto|]. intros y r' H. now apply S3 in H.
    - destruct P as (-> & r & P). apply B in P as (P & _). apply andb_true_iff in X as (X1 & X2). apply isq_lt in X1. apply known_lt in X2. unfold do_on. cbn zeta.
      destruct (set_context (new s _) (size s) (Some q) sqr) as (t, bad) eqn:E.
      assert (Ht : forall y, y < size s -> o_prio (ob t y) = o_prio (ob s y)) by (intros y Hy; rewrite (context_prio _ _ _ _ _ _ y E); cbn; now rewrite upd_neq by lia).
      assert (Ht' : forall y, y < size s -> has100 s y -> has100 t y) by (intros y Hy; unfold has100; now rewrite Ht).
      destruct (rand_all x ok) as (R1 & R2). destruct bad; [apply Nop; [exact Ht'|repeat constructor|intros y r' p [|[]]; discriminate]|]. destruct made.
      + destruct (negb _); [apply Nop; [exact Ht'|repeat constructor|intros y r' p [|[]]; discriminate]|].
        destruct (start_prio t x sqr (Some q)) as (S1 & S2 & S3); [now apply Ht'|]. assert (SO := start_only t x sqr (Some q) (-1)). destruct (start t x sqr (Some q) (-1)) as (u, o). cbn [fst snd] in *.
        split; [apply Forall_app; split; [destruct (o_norand (ob t x)); [constructor|exact R1]|exact S1]|]. split; [auto|]. intros y r' H. apply in_app_or in H as [H|H].
        * exfalso. destruct (o_norand (ob t x)); [easy|now apply R2 in H].
        * split; [eauto|]. apply SO in H as ->. exact X2.
      + destruct (item_prio t q x None (rand x ok)) as (S1 & S2 & S3); [now apply Ht'|exact R1|exact R2|]. split; [exact S1|]. split; [auto|]. intros y r' H. now apply S3 in H.
    - destruct P as (-> & r & P). apply B in P as (P & _). apply andb_true_iff in X as (X1 & X2). apply known_lt in X2. unfold send_mac. destruct (o_seq (ob s x)).
      + destruct (start_prio s x (o_sqr (ob s x)) (Some q)) as (S1 & S2 & S3); [exact P|]. split; [exact S1|]. split; [auto|]. intros y r' H. split; [eauto|]. now apply start_only in H as ->.
      + destruct (item_prio s q x None []) as (S1 & S2 & S3); [exact P|constructor|easy|]. split; [exact S1|]. split; [auto|]. intros y r' H. now apply S3 in H.
    - easy. }
  destruct K as (K1 & K2 & K3). split; [apply Forall_app; auto|]. intros y q H. apply in_app_or in H as [H|H].
  - apply B in H as (H & Hy). split; [auto|lia].
  - apply K3 in H as (H & Hy). split; [exact H|lia].
Qed.
Lemma plain_all ls : forall s tr, plain_inv s tr -> plain_run s tr ls -> plain_inv (fst (run_machine step s ls)) (tr ++ snd (run_machine step s ls)).
Proof.
  induction ls as [|l ls IH]; intros s tr I R; cbn [run_machine]; [now rewrite app_nil_r|]. destruct R as (R1 & R2).
  assert (J := plain_step s tr l I R1). destruct (step s l) as (t, o). cbn [fst snd] in *. assert (K := IH _ _ J R2). destruct (run_machine step t ls) as (u, o2). cbn [fst snd] in *. now rewrite app_assoc.
Qed.

(** ** Names *)
Lemma concat_snoc d L a : L <> [] -> String.concat d (L ++ [a]) = (String.concat d L ++ d ++ a)%string.
Proof.
  induction L as [|b L IH]; [easy|]. intros _. destruct L as [|c L]; [reflexivity|].
  change (String.concat d ((b :: c :: L) ++ [a])) with (b ++ d ++ String.concat d ((c :: L) ++ [a]))%string. rewrite IH by easy.
  change (String.concat d (b :: c :: L)) with (b ++ d ++ String.concat d (c :: L))%string.
  assert (As : forall u v w : string, ((u ++ v) ++ w = u ++ v ++ w)%string) by (induction u as [|e u IHu]; intros v w; cbn; [reflexivity|now rewrite IHu]). now rewrite !As.
Qed.
Lemma last_cons (p : nat) l x : last (p :: l) x = last l p.
Proof. revert p x. induction l as [|a l IH]; intros p x; [reflexivity|]. change (last (p :: a :: l) x) with (last (a :: l) x). rewrite IH. symmetry. apply IH. Qed.
Lemma shown_match n : match n with EmptyString => "_item"%string | String a t => String a t end = shown n.
Proof. now destruct n. Qed.
Lemma full_name_ends qname s x l : chain s x l -> forall k, List.length l < k ->
  full_name qname k s x = Some (String.concat "." (map qname (to_list (o_sqr (ob s (last l x)))) ++ map (fun y => shown (o_name (ob s y))) (rev (x :: l)))).
Proof.
  intros C. induction C as [x E|x p l E C IH]; intros [|k] Hk; try (cbn in Hk; lia); cbn [full_name]; rewrite E; rewrite shown_match.
  - cbn [last rev app map]. f_equal. destruct (o_sqr (ob s x)); reflexivity.
  - cbn in Hk. rewrite IH by lia. cbn [option_map]. f_equal. rewrite last_cons.
    change (rev (x :: p :: l)) with (rev (p :: l) ++ [x])%list. rewrite map_app, app_assoc. cbn [map]. rewrite concat_snoc; [reflexivity|].
    intros H. apply app_eq_nil in H as (_ & H). apply map_eq_nil in H. cbn in H. apply app_eq_nil in H as (_ & H). discriminate.
Qed.
Lemma full_name_only qname s : forall k x n, full_name qname k s x = Some n -> exists l, chain s x l.
Proof.
  induction k as [|k IH]; intros x n; cbn [full_name]; [discriminate|]. destruct (o_par (ob s x)) as [p|] eqn:E; [|intros _; exists []; now constructor].
  destruct (full_name qname k s p) as [m|] eqn:F; [|discriminate]. intros _. destruct (IH p m F) as (l & C). exists (p :: l). now constructor.
Qed.
Lemma path_ends s x l : chain s x l -> forall k acc, List.length l < k ->
  seq_path k s x acc = Some (String.concat "." (map (fun y => o_name (ob s y)) (rev l) ++ [acc])).
Proof.
  intros C. induction C as [x E|x p l E C IH]; intros [|k] acc Hk; try (cbn in Hk; lia); cbn [seq_path]; rewrite E; [reflexivity|].
  cbn in Hk. rewrite IH by lia. f_equal. change (rev (p :: l)) with (rev l ++ [p])%list. rewrite map_app, <- app_assoc. cbn [map app].
  clear. set (L := map (fun y => o_name (ob s y)) (rev l)). replace (L ++ [o_name (ob s p); acc])%list with ((L ++ [o_name (ob s p)]) ++ [acc])%list by (rewrite <- app_assoc; reflexivity).
  destruct L as [|b L]; [reflexivity|]. rewrite !concat_snoc by (intros H; apply (f_equal (@List.length string)) in H; rewrite ?app_length in H; cbn in H; lia).
  assert (As : forall u v w : string, ((u ++ v) ++ w = u ++ v ++ w)%string) by (induction u as [|e u IHu]; intros v w; cbn; [reflexivity|now rewrite IHu]). now rewrite !As.
Qed.
Lemma path_only s : forall k x acc n, seq_path k s x acc = Some n -> exists l, chain s x l.
Proof.
  induction k as [|k IH]; intros x acc n; cbn [seq_path]; [discriminate|]. destruct (o_par (ob s x)) as [p|] eqn:E; [|intros _; exists []; now constructor].
  intros F. destruct (IH _ _ _ F) as (l & C). exists (p :: l). now constructor.
Qed.
Lemma root_ends s x l : chain s x l -> forall k acc, List.length l < k -> root_seq k s x acc = Some (match l with [] => acc | _ => hd_error (rev l) end).
Proof.
  intros C. induction C as [x E|x p l E C IH]; intros [|k] acc Hk; try (cbn in Hk; lia); cbn [root_seq]; rewrite E; [reflexivity|].
  cbn in Hk. rewrite IH by lia. destruct l as [|b l]; [reflexivity|]. f_equal. change (rev (p :: b :: l)) with (rev (b :: l) ++ [p])%list.
  destruct (rev (b :: l)) as [|c m] eqn:R; [|reflexivity]. apply (f_equal (@List.length nat)) in R. rewrite rev_length in R. discriminate.
Qed.
Lemma root_only s : forall k x acc n, root_seq k s x acc = Some n -> exists l, chain s x l.
Proof.
  induction k as [|k IH]; intros x acc n; cbn [root_seq]; [discriminate|]. destruct (o_par (ob s x)) as [p|] eqn:E; [|intros _; exists []; now constructor].
  intros F. destruct (IH _ _ _ F) as (l & C). exists (p :: l). now constructor.
Qed.

(** ** A check of tidy runs, for the examples *)
Definition leafb (s : cs) (x : nat) : bool := forallb (fun y => match o_par (ob s y) with Some p => negb (p =? x) | None => true end) (seq 0 (size s)).
Definition joinb (s : cs) (x p : nat) : bool := negb (x =? p) && (match o_par (ob s x) with Some r => r =? p | None => false end || leafb s x).
Definition tidyb (s : cs) (l : label) : bool :=
  match l with
  | LDep _ _ | LPar _ _ => false
  | LContext x (Some p) _ | LStart x _ (Some p) _ => joinb s x p
  | LItem q x _ _ | LDo q x _ _ _ _ | LSendMac q x _ => joinb s x q
  | LExec _ x => leafb s x
  | _ => true
  end.
Fixpoint tidy_runb (s : cs) (ls : list label) : bool := match ls with [] => true | l :: ls => tidyb s l && tidy_runb (fst (step s l)) ls end.
Lemma leafb_ok s x : good s -> leafb s x = true -> leaf s x.
Proof.
  intros G H y E. assert (Hy : y < size s) by (apply (g_par _ G) in E; tauto). unfold leafb in H. rewrite forallb_forall in H.
  specialize (H y). rewrite E in H. rewrite Nat.eqb_refl in H. discriminate H. apply in_seq. lia.
Qed.
Lemma joinb_ok s x p : good s -> joinb s x p = true -> may_join s x p.
Proof.
  intros G H. unfold joinb in H. apply andb_true_iff in H as (H1 & H2). apply negb_true_iff, Nat.eqb_neq in H1. split; [exact H1|].
  apply orb_true_iff in H2 as [H2|H2]; [left; destruct (o_par (ob s x)); [apply Nat.eqb_eq in H2; congruence|discriminate]|right; now apply leafb_ok].
Qed.
Lemma tidyb_ok s l : good s -> tidyb s l = true -> tidy s l.
Proof.
  intros G. destruct l as [| ? [?|] ? | | | | | | ? ? [?|] ? | | | | ]; cbn [tidyb tidy]; intros H; try exact I; try discriminate; try (now apply joinb_ok).
  now apply leafb_ok.
Qed.
Lemma tidy_runb_ok ls : forall s, good s -> tidy_runb s ls = true -> tidy_run s ls.
Proof.
  induction ls as [|l ls IH]; intros s G H; cbn [tidy_runb tidy_run] in *; [exact I|]. apply andb_true_iff in H as (H1 & H2). split; [now apply tidyb_ok|]. apply IH; [now apply step_good|exact H2].
Qed.
Lemma start_par s x sqr par prio : o_par (ob (fst (start s x sqr par prio)) x) = orelse par (o_par (ob s x)).
Proof.
  unfold start. destruct (set_context s x par sqr) as (t, bad) eqn:E. apply context_frame in E as (_ & _ & _ & E4 & _).
  rewrite <- E4. destruct bad; [reflexivity|]. destruct (prio <? -1)%Z; [reflexivity|]. cbn. now rewrite upd_eq.
Qed.
