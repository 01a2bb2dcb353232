(** C60: construction of phase graphs. *)
From Coq Require Import List Bool Arith Lia Relations.
From Verif Require Import Prelude PhaseGraphModel.
Import ListNotations.

(** *** Dictionaries *)
Lemma mem_in l x : mem l x = true <-> In x l.
Proof. unfold mem. rewrite existsb_exists. split; [intros (y & Hy & E); apply Nat.eqb_eq in E; now subst|intros H; exists x; split; [exact H|apply Nat.eqb_refl]]. Qed.
Lemma mem_out l x : mem l x = false <-> ~ In x l.
Proof. rewrite <- mem_in. destruct (mem l x); split; congruence. Qed.
Lemma in_dput l x y : In y (dput l x) <-> In y l \/ y = x.
Proof. unfold dput. destruct (mem l x) eqn:E; [apply mem_in in E; intuition; now subst|rewrite in_app_iff; cbn; intuition]. Qed.
Lemma in_dremove l x y : In y (dremove l x) <-> In y l /\ y <> x.
Proof. unfold dremove. rewrite filter_In, negb_true_iff, Nat.eqb_neq. intuition. Qed.
Lemma nodup_dput l x : NoDup l -> NoDup (dput l x).
Proof.
  intros H. unfold dput. destruct (mem l x) eqn:E; [exact H|]. apply mem_out in E. rewrite <- (rev_involutive (l ++ [x])), rev_app_distr. apply NoDup_rev. cbn. constructor; [now rewrite <- in_rev|now apply NoDup_rev].
Qed.
Lemma nodup_dremove l x : NoDup l -> NoDup (dremove l x).
Proof. intros H. now apply NoDup_filter. Qed.

(** *** Well-formed graphs: no shared dictionary, and the two directions agree. *)
Record wf (s : pg) : Prop := Wf {
  wf_s : forall n m, In n (nodes s) -> In m (nodes s) -> sdid s n = sdid s m -> n = m;
  wf_p : forall n m, In n (nodes s) -> In m (nodes s) -> pdid s n = pdid s m -> n = m;
  wf_sp : forall n m, In n (nodes s) -> In m (nodes s) -> sdid s n <> pdid s m;
  wf_lt : forall n, In n (nodes s) -> sdid s n < nextd s /\ pdid s n < nextd s;
  wf_succ : forall n, In n (nodes s) -> NoDup (Succ s n) /\ forall m, In m (Succ s n) -> In m (nodes s) /\ In n (Pred s m);
  wf_pred : forall n, In n (nodes s) -> NoDup (Pred s n) /\ forall m, In m (Pred s n) -> In m (nodes s) /\ In n (Succ s m)
}.
(** The graph seen backwards. *)
Definition flip (s : pg) : pg := PG (pdid s) (sdid s) (dict s) (nextd s) (nodes s).
Lemma wf_flip s : wf s -> wf (flip s).
Proof.
  intros [A B C D E F]. constructor; cbn [flip sdid pdid dict nextd nodes]; auto.
  - intros n m Hn Hm H. now apply (C m n).
  - intros n Hn. destruct (D n Hn). auto.
Qed.
Lemma relink_flip ps : forall s x b, relink_succs (flip s) ps x b = option_map flip (relink_preds s ps x b).
Proof.
  induction ps as [|p t IH]; intros s x b; cbn [relink_succs relink_preds]; [reflexivity|]. unfold del. cbn [flip dict pdid sdid].
  destruct (mem (dict s (sdid s p)) x); [|reflexivity]. cbn [dict pdid sdid]. rewrite <- IH. reflexivity.
Qed.
Lemma after_flip s b e x : add_after s b e x = option_map flip (add_before (flip s) e b x).
Proof.
  unfold add_after, add_before. cbn [flip sdid pdid dict nextd nodes].
  set (s1 := put (PG (pdid s) (upd (sdid s) e (sdid s x)) (dict s) (nextd s) (nodes s)) (pdid s b) x).
  change (put (PG (upd (sdid s) e (sdid s x)) (pdid s) (dict s) (nextd s) (nodes s)) (pdid s b) x) with (flip s1).
  change (Succ (flip s1) x) with (Pred s1 x). rewrite relink_flip. destruct (relink_preds s1 (Pred s1 x) x e); reflexivity.
Qed.

Lemma relink_ok ps : forall s x b, NoDup ps -> (forall p q, In p ps -> In q ps -> sdid s p = sdid s q -> p = q) -> (forall p, In p ps -> In x (dict s (sdid s p))) ->
  exists s', relink_preds s ps x b = Some s' /\ sdid s' = sdid s /\ pdid s' = pdid s /\ nextd s' = nextd s /\ nodes s' = nodes s /\
    (forall p, In p ps -> dict s' (sdid s p) = dput (dremove (dict s (sdid s p)) x) b) /\ (forall d, (forall p, In p ps -> sdid s p <> d) -> dict s' d = dict s d).
Proof.
  induction ps as [|p t IH]; intros s x b Hnd Hinj Hx; cbn [relink_preds].
  - exists s. repeat split; auto. intros p [].
  - inversion Hnd as [|? ? Hp Ht]; subst. unfold del. rewrite (proj2 (mem_in _ _) (Hx p (or_introl eq_refl))).
    set (s1 := PG (sdid s) (pdid s) (upd (dict s) (sdid s p) (dremove (dict s (sdid s p)) x)) (nextd s) (nodes s)).
    set (s2 := put s1 (sdid s1 p) b). assert (Hne : forall q, In q t -> sdid s q <> sdid s p) by (intros q Hq E; apply Hp; rewrite <- (Hinj q p (or_intror Hq) (or_introl eq_refl) E); exact Hq).
    assert (Hd2 : forall d, d <> sdid s p -> dict s2 d = dict s d) by (intros d Hd; unfold s2, s1, put; cbn [dict sdid]; now rewrite !upd_neq).
    destruct (IH s2 x b Ht) as (s' & E & E1 & E2 & E3 & E4 & E5 & E6).
    + intros q r Hq Hr. apply (Hinj q r); now right.
    + intros q Hq. change (sdid s2 q) with (sdid s q). rewrite Hd2 by auto. apply Hx. now right.
    + change (sdid s2) with (sdid s) in *. exists s'. split; [exact E|]. repeat split; auto.
      * intros q [<-|Hq]; [|rewrite (E5 q Hq); rewrite Hd2 by auto; reflexivity].
        rewrite E6 by (intros q Hq; apply Hne; exact Hq). unfold s2, s1, put. cbn [dict sdid]. rewrite !upd_eq. reflexivity.
      * intros d Hd. rewrite E6 by (intros q Hq; apply Hd; now right). apply Hd2. intros ->. now apply (Hd p (or_introl eq_refl)).
Qed.
(** What [add_before] does to the neighbours of every node. *)
Lemma before_view s b e x : wf s -> In b (nodes s) -> In e (nodes s) -> In x (nodes s) -> b <> x -> e <> x -> ~ In e (Pred s x) -> Pred s b = [] -> ~ In x (Succ s e) ->
  exists s', add_before s b e x = Some s' /\ nodes s' = nodes s /\
    (forall n, In n (nodes s) -> Succ s' n = if mem (Pred s x) n then dput (dremove (Succ s n) x) b else if Nat.eqb n e then Succ s e ++ [x] else Succ s n) /\
    (forall n, In n (nodes s) -> Pred s' n = if Nat.eqb n x then [e] else if Nat.eqb n b then Pred s x else Pred s n) /\ wf s'.
Proof.
  intros W Hb He Hx Hbx Hex Hep Hpb Hse. pose proof W as [A B C D E F].
  unfold add_before. set (s1 := PG (sdid s) (upd (pdid s) b (pdid s x)) (dict s) (nextd s) (nodes s)). set (s2 := put s1 (sdid s1 e) x).
  assert (HP : Pred s2 x = Pred s x).
  { unfold Pred, s2, s1, put. cbn [dict pdid sdid]. rewrite (upd_neq (pdid s) b x) by auto. apply upd_neq. intros H. symmetry in H. now apply (C e x He Hx) in H. }
  rewrite HP. destruct (F x Hx) as [Fn Fm].
  assert (Hd2 : forall p, In p (Pred s x) -> dict s2 (sdid s p) = Succ s p).
  { intros p Hp. unfold s2, s1, put, Succ. cbn [dict sdid]. apply upd_neq. intros H. apply Hep. rewrite <- (A p e); auto. now apply Fm. }
  destruct (relink_ok (Pred s x) s2 x b Fn) as (s3 & E3 & R1 & R2 & R3 & R4 & R5 & R6).
  { intros p q Hp Hq H. apply A; auto; now apply Fm. }
  { intros p Hp. change (sdid s2 p) with (sdid s p). rewrite Hd2 by exact Hp. now apply Fm. }
  rewrite E3. change (sdid s2) with (sdid s) in *. change (pdid s2) with (upd (pdid s) b (pdid s x)) in *. change (nextd s2) with (nextd s) in *. change (nodes s2) with (nodes s) in *.
  eexists. split; [reflexivity|]. cbn [nodes]. split; [exact R4|].
  set (s' := PG _ _ _ _ _).
  assert (HS : forall n, In n (nodes s) -> Succ s' n = if mem (Pred s x) n then dput (dremove (Succ s n) x) b else if Nat.eqb n e then Succ s e ++ [x] else Succ s n).
  { intros n Hn. unfold s', Succ at 1. cbn [dict sdid]. rewrite R1. rewrite upd_neq by (rewrite R3; destruct (D n Hn); lia).
    destruct (mem (Pred s x) n) eqn:Em.
    - apply mem_in in Em. rewrite R5 by exact Em. now rewrite Hd2.
    - apply mem_out in Em. rewrite R6 by (intros p Hp H; apply Em; rewrite <- (A p n); auto; now apply Fm).
      unfold s2, s1, put. cbn [dict sdid]. destruct (Nat.eqb_spec n e) as [->|Hne].
      + rewrite upd_eq. fold (Succ s e). unfold dput. now rewrite (proj2 (mem_out _ _) Hse).
      + rewrite upd_neq; [reflexivity|]. intros H. apply Hne. now apply A. }
  assert (HPr : forall n, In n (nodes s) -> Pred s' n = if Nat.eqb n x then [e] else if Nat.eqb n b then Pred s x else Pred s n).
  { assert (Hold : forall m, In m (nodes s) -> dict s3 (pdid s m) = Pred s m).
    { intros m Hm. rewrite R6 by (intros p Hp; apply C; auto; now apply Fm). unfold s2, s1, put, Pred. cbn [dict sdid]. apply upd_neq. intros H. symmetry in H. now apply (C e m He Hm) in H. }
    intros n Hn. unfold s', Pred at 1. cbn [dict pdid]. rewrite R2, R3. destruct (Nat.eqb_spec n x) as [->|Hnx]; [now rewrite !upd_eq|].
    rewrite (upd_neq _ x n) by auto. destruct (Nat.eqb_spec n b) as [->|Hnb].
    - rewrite upd_eq, upd_neq by (destruct (D x Hx); lia). now apply Hold.
    - rewrite (upd_neq _ b n), upd_neq by (auto; destruct (D n Hn); lia). now apply Hold. }
  split; [exact HS|]. split; [exact HPr|].
  assert (Hsid : forall n, sdid s' n = sdid s n) by (intros n; unfold s'; cbn [sdid]; now rewrite R1).
  assert (Hpid : forall n, pdid s' n = if Nat.eqb n x then nextd s else if Nat.eqb n b then pdid s x else pdid s n).
  { intros n. unfold s'. cbn [pdid]. rewrite R2, R3. unfold upd. reflexivity. }
  assert (Hnx : nextd s' = S (nextd s)) by (unfold s'; cbn [nextd]; now rewrite R3).
  assert (Hnn : nodes s' = nodes s) by (unfold s'; exact R4).
  assert (Hbe : forall n, In n (nodes s) -> In b (Succ s n) -> False).
  { intros n Hn H. apply (proj2 (E n Hn)) in H as [_ H]. now rewrite Hpb in H. }
  constructor; rewrite ?Hnn.
  - intros n m Hn Hm. rewrite !Hsid. now apply A.
  - intros n m Hn Hm. rewrite !Hpid. destruct (D n Hn), (D m Hm), (D x Hx).
    destruct (Nat.eqb_spec n x) as [->|]; destruct (Nat.eqb_spec m x) as [->|]; auto; [destruct (Nat.eqb m b); lia|destruct (Nat.eqb n b); lia|].
    destruct (Nat.eqb_spec n b) as [->|]; destruct (Nat.eqb_spec m b) as [->|]; auto; intros H'; [apply B in H'; auto; congruence|apply B in H'; auto; congruence].
  - intros n m Hn Hm. rewrite Hsid, Hpid. destruct (D n Hn). destruct (Nat.eqb m x); [lia|]. destruct (Nat.eqb m b); apply C; auto.
  - intros n Hn. rewrite Hsid, Hpid, Hnx. destruct (D n Hn), (D x Hx). destruct (Nat.eqb n x); [lia|]. destruct (Nat.eqb n b); lia.
  - intros n Hn. rewrite HS by exact Hn. destruct (E n Hn) as [En Em]. split.
    + destruct (mem (Pred s x) n); [now apply nodup_dput, nodup_dremove|]. destruct (Nat.eqb_spec n e) as [->|]; [|exact En].
      pose proof (nodup_dput _ x En) as G. unfold dput in G. now rewrite (proj2 (mem_out _ _) Hse) in G.
    + intros m Hm. assert (Hm' : In m (nodes s) /\ ((In m (Succ s n) /\ m <> x) \/ (In n (Pred s x) /\ m = b) \/ (n = e /\ m = x))).
      { destruct (mem (Pred s x) n) eqn:Emm.
        - apply mem_in in Emm. apply in_dput in Hm as [Hm| ->]; [apply in_dremove in Hm as [Hm1 Hm2]; split; [now apply Em|auto]|auto].
        - apply mem_out in Emm. destruct (Nat.eqb_spec n e) as [->|Hne].
          + apply in_app_or in Hm as [Hm|[<-|[]]]; [|auto]. split; [now apply Em|]. left. split; [exact Hm|]. intros ->. auto.
          + split; [now apply Em|]. left. split; [exact Hm|]. intros ->. apply Emm. now apply Em. }
      destruct Hm' as [Hmn Hm']. split; [exact Hmn|]. rewrite HPr by exact Hmn.
      destruct Hm' as [[H1 H2]|[[H1 ->]|[-> ->]]].
      * destruct (Nat.eqb_spec m x); [congruence|]. destruct (Nat.eqb_spec m b) as [->|]; [exfalso; exact (Hbe n Hn H1)|]. exact (proj2 (Em m H1)).
      * destruct (Nat.eqb_spec b x); [congruence|]. now rewrite Nat.eqb_refl.
      * rewrite Nat.eqb_refl. now left.
  - intros n Hn. rewrite HPr by exact Hn. destruct (Nat.eqb_spec n x) as [->|Hnx'].
    + split; [repeat constructor; intros []|]. intros m [<-|[]]. split; [exact He|]. rewrite HS by exact He. rewrite (proj2 (mem_out _ _) Hep), Nat.eqb_refl. apply in_or_app. right. now left.
    + destruct (Nat.eqb_spec n b) as [->|Hnb].
      * split; [exact Fn|]. intros m Hm. split; [now apply Fm|]. rewrite HS by now apply Fm. rewrite (proj2 (mem_in _ _) Hm). apply in_dput. auto.
      * destruct (F n Hn) as [Fn' Fm']. split; [exact Fn'|]. intros m Hm. destruct (Fm' m Hm) as [G1 G2]. split; [exact G1|]. rewrite HS by exact G1.
        destruct (mem (Pred s x) m); [apply in_dput; left; now apply in_dremove|]. destruct (Nat.eqb_spec m e) as [->|]; [apply in_or_app; now left|exact G2].
Qed.
Lemma after_view s b e x : wf s -> In b (nodes s) -> In e (nodes s) -> In x (nodes s) -> b <> x -> e <> x -> ~ In b (Succ s x) -> Succ s e = [] -> ~ In x (Pred s b) ->
  exists s', add_after s b e x = Some s' /\ nodes s' = nodes s /\
    (forall n, In n (nodes s) -> Pred s' n = if mem (Succ s x) n then dput (dremove (Pred s n) x) e else if Nat.eqb n b then Pred s b ++ [x] else Pred s n) /\
    (forall n, In n (nodes s) -> Succ s' n = if Nat.eqb n x then [b] else if Nat.eqb n e then Succ s x else Succ s n) /\ wf s'.
Proof.
  intros W Hb He Hx Hbx Hex H1 H2 H3. destruct (before_view (flip s) e b x (wf_flip s W) He Hb Hx Hex Hbx H1 H2 H3) as (s' & E & En & ES & EP & W').
  exists (flip s'). rewrite after_flip, E. split; [reflexivity|]. split; [exact En|]. split; [exact ES|]. split; [exact EP|]. now apply wf_flip.
Qed.

(** *** Insertion into any graph *)
(** [precedes s u v]: there is a path from u to v. *)
Definition edge (s : pg) (u v : nat) : Prop := In u (nodes s) /\ In v (Succ s u).
Definition precedes (s : pg) : nat -> nat -> Prop := clos_trans nat (edge s).
(** A new phase (b = e) or schedule (from b to e) that is not connected to the rest. *)
Record fresh_part (s : pg) (new : list nat) (b e : nat) : Prop := Fresh {
  fp_b : In b (nodes s) /\ In b new; fp_e : In e (nodes s) /\ In e new;
  fp_start : Pred s b = []; fp_end : Succ s e = [];
  fp_path : b = e \/ precedes s b e;
  fp_closed : forall u v, edge s u v -> (In u new <-> In v new)
}.
Definition acyclic (s : pg) : Prop := forall u, ~ precedes s u u.
Lemma edge_pred s u v : wf s -> In v (nodes s) -> In u (Pred s v) <-> edge s u v.
Proof.
  intros W Hv. split.
  - intros H. split; [now apply (wf_pred s W v Hv)|now apply (wf_pred s W v Hv)].
  - intros [H1 H2]. now apply (wf_succ s W u H1).
Qed.
Lemma precedes_flip s u v : wf s -> precedes (flip s) u v <-> precedes s v u.
Proof.
  intros W. assert (G : forall a b, edge (flip s) a b <-> edge s b a).
  { intros a b. unfold edge. cbn [flip nodes]. change (Succ (flip s) a) with (Pred s a). split; intros [H1 H2]; [apply (wf_pred s W a H1) in H2; tauto|apply (wf_succ s W b H1) in H2; tauto]. }
  unfold precedes. split; induction 1 as [a b H|a b c _ IH1 _ IH2]; try (apply t_step; now apply G); eapply t_trans; eauto.
Qed.
Lemma precedes_mono s s' : (forall u v, edge s u v -> precedes s' u v) -> forall u v, precedes s u v -> precedes s' u v.
Proof. intros H u v P. induction P; [auto|eapply t_trans; eauto]. Qed.
(** before: the new part goes directly between x and its predecessors, all else keeps its order. *)
Theorem C60_before s new b e x : wf s -> fresh_part s new b e -> In x (nodes s) -> ~ In x new ->
  exists s', add_before s b e x = Some s' /\ wf s' /\
    (Pred s' x = [e] /\ Pred s' b = Pred s x) /\
    (forall u v, ~ In u new -> ~ In v new -> precedes s' u v <-> precedes s u v) /\
    (forall u, ~ In u new -> precedes s' u b <-> precedes s u x) /\
    (forall v, ~ In v new -> precedes s' e v <-> v = x \/ precedes s x v) /\
    (acyclic s -> acyclic s' /\ forall u v, In u new -> In v new -> precedes s' u v <-> precedes s u v).
Proof.
  intros W [[Hb Nb] [He Ne] Hst Hen Hpath Hcl] Hx Nx.
  assert (Hep : ~ In e (Pred s x)) by (intros H; apply (edge_pred s e x W Hx) in H; apply Hcl in H; tauto).
  destruct (before_view s b e x W Hb He Hx) as (s' & E & En & ES & EP & W'); try (intros ->; tauto); auto.
  { intros H. now rewrite Hen in H. }
  exists s'. split; [exact E|]. split; [exact W'|].
  split; [split; [now rewrite EP, Nat.eqb_refl|rewrite EP by exact Hb; destruct (Nat.eqb_spec b x) as [->|]; [tauto|now rewrite Nat.eqb_refl]]|].
  assert (HE : forall u v, edge s' u v <-> (edge s u v /\ v <> x) \/ (edge s u x /\ v = b) \/ (u = e /\ v = x)).
  { intros u v. unfold edge at 1. rewrite En. split.
    - intros [Hu Hv]. rewrite ES in Hv by exact Hu. destruct (mem (Pred s x) u) eqn:Em.
      + apply mem_in in Em. apply (edge_pred s u x W Hx) in Em. apply in_dput in Hv as [Hv| ->]; [|auto]. apply in_dremove in Hv. left. split; [split; tauto|tauto].
      + apply mem_out in Em. destruct (Nat.eqb_spec u e) as [->|Hne]; [rewrite Hen in Hv; destruct Hv as [<-|[]]; auto|].
        left. split; [split; auto|]. intros ->. apply Em. apply (edge_pred s u x W Hx). split; auto.
    - intros [[[Hu Hv] Hvx]|[[Hu ->]|[-> ->]]].
      + split; [exact Hu|]. rewrite ES by exact Hu. destruct (mem (Pred s x) u); [apply in_dput; left; now apply in_dremove|]. destruct (Nat.eqb_spec u e) as [->|]; [apply in_or_app; now left|exact Hv].
      + split; [apply Hu|]. rewrite ES by apply Hu. rewrite (proj2 (mem_in _ _) (proj2 (edge_pred s u x W Hx) Hu)). apply in_dput. auto.
      + split; [exact He|]. rewrite ES by exact He. rewrite (proj2 (mem_out _ _) Hep), Nat.eqb_refl. apply in_or_app. right. now left. }
  assert (Hin : forall u v, In u new -> edge s u v -> edge s' u v).
  { intros u v Hu Huv. apply HE. left. split; [exact Huv|]. intros ->. apply Nx. now apply (Hcl u x Huv). }
  assert (Hnew : forall u v, precedes s u v -> In u new -> precedes s' u v /\ In v new).
  { intros u v P. induction P as [u v H|u v w _ IH1 _ IH2]; intros Hu; [split; [apply t_step; auto|now apply (Hcl u v H)]|].
    destruct (IH1 Hu) as [G1 G2]. destruct (IH2 G2) as [G3 G4]. split; [eapply t_trans; eauto|exact G4]. }
  assert (Hex : edge s' e x) by (apply HE; auto).
  assert (Hbx : precedes s' b x).
  { destruct Hpath as [->|Hp]; [now apply t_step|]. eapply t_trans; [apply (Hnew b e Hp Nb)|now apply t_step]. }
  assert (Hfwd : forall u v, precedes s u v -> precedes s' u v).
  { apply precedes_mono. intros u v H. destruct (Nat.eq_dec v x) as [->|Hv]; [|apply t_step, HE; auto]. eapply t_trans; [apply t_step, HE; right; left; split; [exact H|reflexivity]|exact Hbx]. }
  assert (Hedge : forall u v, edge s' u v -> ~ In u new -> (~ In v new -> precedes s u v) /\ (In v new -> precedes s u x)).
  { intros u v H Hu. apply HE in H as [[H Hv]|[[H ->]|[-> ->]]]; [| |tauto].
    - split; [intros _; now apply t_step|]. intros Hv'. exfalso. apply Hu. now apply (Hcl u v H).
    - split; [tauto|]. intros _. now apply t_step. }
  assert (Hedge2 : forall u v, edge s' u v -> In u new -> (In v new -> precedes s u v) /\ (~ In v new -> u = e /\ v = x)).
  { intros u v H Hu. apply HE in H as [[H Hv]|[[H ->]|[-> ->]]]; [| |tauto].
    - split; [intros _; now apply t_step|]. intros Hv'. exfalso. apply Hv'. now apply (Hcl u v H).
    - exfalso. apply Nx. now apply (Hcl u x H). }
  (* a path that starts outside: what it says about the old graph *)
  assert (Hback : forall u v, precedes s' u v -> ~ In u new -> (~ In v new -> precedes s u v) /\ (In v new -> precedes s u x)).
  { intros u v P. apply clos_trans_tn1_iff in P. induction P as [v H|w v H P IH]; intros Hu; [now apply Hedge|].
    destruct (IH Hu) as [I1 I2]. destruct (in_dec Nat.eq_dec w new) as [Hw|Hw].
    - destruct (Hedge2 w v H Hw) as [G1 G2]. split; [|auto]. intros Hv. destruct (G2 Hv) as [_ ->]. auto.
    - destruct (Hedge w v H Hw) as [G1 G2]. split; intros Hv; (eapply t_trans; [apply I1; exact Hw|]); [now apply G1|now apply G2]. }
  (* a path that starts inside *)
  assert (Hback2 : forall u v, precedes s' u v -> In u new -> (In v new -> precedes s u v \/ precedes s x x) /\ (~ In v new -> v = x \/ precedes s x v)).
  { intros u v P. apply clos_trans_tn1_iff in P. induction P as [v H|w v H P IH]; intros Hu.
    - destruct (Hedge2 u v H Hu) as [G1 G2]. split; [auto|]. intros Hv. left. now apply G2.
    - destruct (IH Hu) as [I1 I2]. destruct (in_dec Nat.eq_dec w new) as [Hw|Hw].
      + destruct (Hedge2 w v H Hw) as [G1 G2]. split; [|intros Hv; left; now apply G2]. intros Hv. destruct (I1 Hw) as [G|G]; [left; eapply t_trans; [exact G|now apply G1]|now right].
      + destruct (Hedge w v H Hw) as [G1 G2]. split; intros Hv; right; (destruct (I2 Hw) as [E0|G]; [subst w|eapply t_trans; [exact G|]]); try (now apply G1); now apply G2. }
  split; [intros u v Hu Hv; split; [intros P; now apply Hback|apply Hfwd]|].
  split; [|split].
  - intros u Hu. split; [intros P; now apply (Hback u b P Hu)|]. intros P. apply clos_trans_tn1_iff in P. inversion P as [H|w ? H Q]; subst.
    + apply t_step, HE. auto.
    + apply clos_trans_tn1_iff in Q. eapply t_trans; [apply Hfwd; exact Q|apply t_step, HE; auto].
  - intros v Hv. split; [intros P; now apply (Hback2 e v P Ne)|]. intros [-> |P]; [now apply t_step|]. eapply t_trans; [apply t_step; exact Hex|now apply Hfwd].
  - intros Hac. split.
    + intros u P. destruct (in_dec Nat.eq_dec u new) as [Hu|Hu]; [|now apply (Hac u), (Hback u u P Hu)].
      destruct (proj1 (Hback2 u u P Hu) Hu) as [G|G]; now apply Hac in G.
    + intros u v Hu Hv. split; [|apply Hfwd]. intros P. destruct (proj1 (Hback2 u v P Hu) Hv) as [G|G]; [exact G|now apply Hac in G].
Qed.
Print Assumptions C60_before.
Lemma fresh_flip s new b e : wf s -> fresh_part s new b e -> fresh_part (flip s) new e b.
Proof.
  intros W [A B C D F G]. constructor; auto.
  - destruct F as [-> |F]; [now left|right]. now apply precedes_flip.
  - intros u v H. unfold edge in H. cbn [flip nodes] in H. change (Succ (flip s) u) with (Pred s u) in H. destruct H as [H1 H2]. apply (wf_pred s W u H1) in H2. symmetry. apply G. unfold edge. tauto.
Qed.
Lemma flip_flip s : flip (flip s) = s.
Proof. now destruct s. Qed.
(** after: the same, directly behind x. *)
Theorem C60_after s new b e x : wf s -> fresh_part s new b e -> In x (nodes s) -> ~ In x new ->
  exists s', add_after s b e x = Some s' /\ wf s' /\
    (Succ s' x = [b] /\ Succ s' e = Succ s x) /\
    (forall u v, ~ In u new -> ~ In v new -> precedes s' u v <-> precedes s u v) /\
    (forall v, ~ In v new -> precedes s' e v <-> precedes s x v) /\
    (forall u, ~ In u new -> precedes s' u b <-> u = x \/ precedes s u x) /\
    (acyclic s -> acyclic s' /\ forall u v, In u new -> In v new -> precedes s' u v <-> precedes s u v).
Proof.
  intros W Fr Hx Nx. destruct (C60_before (flip s) new e b x (wf_flip s W) (fresh_flip s new b e W Fr) Hx Nx) as (s' & E & W' & [P1 P2] & Q1 & Q2 & Q3 & Q4).
  exists (flip s'). rewrite after_flip, E. split; [reflexivity|]. split; [now apply wf_flip|]. split; [split; assumption|].
  assert (PF : forall u v, precedes (flip s') u v <-> precedes s' v u) by (intros; now apply precedes_flip).
  assert (PS : forall u v, precedes (flip s) u v <-> precedes s v u) by (intros; now apply precedes_flip).
  split; [intros u v Hu Hv; rewrite PF, <- PS; now apply Q1|].
  split; [intros v Hv; rewrite PF, <- PS; now apply Q2|].
  split; [intros u Hu; rewrite PF, <- PS; now apply Q3|].
  intros Hac. destruct Q4 as [Q4 Q5]; [intros u; rewrite PS; apply Hac|]. split; [intros u; rewrite PF; apply Q4|]. intros u v Hu Hv. rewrite PF, <- PS. now apply Q5.
Qed.
Print Assumptions C60_after.

(** *** with: parallel phases *)
Lemma puts_view ps : forall s b (f : pg -> nat -> nat), (f = sdid \/ f = pdid) ->
  let s' := fold_left (fun s p => put s (f s p) b) ps s in
  sdid s' = sdid s /\ pdid s' = pdid s /\ nextd s' = nextd s /\ nodes s' = nodes s /\
  (forall d, (forall p, In p ps -> f s p <> d) -> dict s' d = dict s d) /\ (forall p, In p ps -> dict s' (f s p) = dput (dict s (f s p)) b).
Proof.
  cbn zeta. induction ps as [|p t IH]; intros s b f Hf; cbn [fold_left].
  - repeat split; auto. intros p [].
  - assert (Hff : forall q, f (put s (f s p) b) q = f s q) by (intros q; destruct Hf as [-> | ->]; reflexivity).
    destruct (IH (put s (f s p) b) b f Hf) as (A & B & C & D & E & F). repeat split; auto.
    + intros d Hd. rewrite E by (intros q Hq; rewrite Hff; apply Hd; now right). unfold put. cbn [dict]. apply upd_neq. intros ->. now apply (Hd p (or_introl eq_refl)).
    + intros q Hq. destruct (in_dec Nat.eq_dec (f s q) (map (f s) t)) as [Hi|Hi].
      * apply in_map_iff in Hi as (r & Er & Hr). rewrite <- Er, <- (Hff r), (F r Hr), Hff. unfold put. cbn [dict]. destruct (Nat.eq_dec (f s r) (f s p)) as [E'|E'].
        -- rewrite E', upd_eq. unfold dput at 1. replace (mem (dput (dict s (f s p)) b) b) with true; [reflexivity|]. symmetry. apply mem_in, in_dput. auto.
        -- now rewrite upd_neq.
      * rewrite E by (intros r Hr E'; apply Hi; rewrite <- E', Hff; now apply in_map).
        destruct Hq as [<-|Hq]; [unfold put; cbn [dict]; now rewrite upd_eq|exfalso; apply Hi; now apply in_map].
Qed.
Lemma with_view s b e w : wf s -> In b (nodes s) -> In e (nodes s) -> In w (nodes s) -> b <> w -> e <> w -> Succ s e = [] -> Pred s b = [] -> ~ In w (Succ s w) ->
  let s' := add_with s b e w in
  (pdid s' = upd (pdid s) b (pdid s w) /\ sdid s' = upd (sdid s) e (sdid s w)) /\
  (forall n, In n (nodes s) -> Succ s' n = if mem (Pred s w) n then dput (Succ s n) b else if Nat.eqb n e then Succ s w else Succ s n) /\
  (forall n, In n (nodes s) -> Pred s' n = if mem (Succ s w) n then dput (Pred s n) e else if Nat.eqb n b then Pred s w else Pred s n) /\ nodes s' = nodes s.
Proof.
  intros W Hb He Hw Hbw Hew Hse Hpb Hww. pose proof W as [A B C D E F]. cbn zeta. unfold add_with.
  set (s1 := PG (sdid s) (upd (pdid s) b (pdid s w)) (dict s) (nextd s) (nodes s)).
  set (s2 := PG (upd (sdid s1) e (sdid s1 w)) (pdid s1) (dict s1) (nextd s1) (nodes s1)).
  destruct (puts_view (Pred s w) s2 b sdid (or_introl eq_refl)) as (P1 & P2 & P3 & P4 & P5 & P6). set (s3 := fold_left (fun s p => put s (sdid s p) b) (Pred s w) s2) in *.
  destruct (puts_view (Succ s w) s3 e pdid (or_intror eq_refl)) as (Q1 & Q2 & Q3 & Q4 & Q5 & Q6). set (s4 := fold_left (fun s p => put s (pdid s p) e) (Succ s w) s3) in *.
  rewrite P1 in Q1. rewrite P2 in *. rewrite P4 in Q4. change (sdid s2) with (upd (sdid s) e (sdid s w)) in *. change (pdid s2) with (upd (pdid s) b (pdid s w)) in *. change (dict s2) with (dict s) in *. change (nodes s2) with (nodes s) in *.
  assert (Hpe : ~ In e (Pred s w)) by (intros H; apply (proj2 (F w Hw)) in H as [_ H]; now rewrite Hse in H).
  assert (Hsb : ~ In b (Succ s w)) by (intros H; apply (proj2 (E w Hw)) in H as [_ H]; now rewrite Hpb in H).
  assert (Hwp : ~ In w (Pred s w)) by (intros H; apply (proj2 (F w Hw)) in H; tauto).
  assert (Hps : forall p, In p (Pred s w) -> upd (sdid s) e (sdid s w) p = sdid s p) by (intros p Hp; apply upd_neq; intros ->; auto).
  assert (Hss : forall q, In q (Succ s w) -> upd (pdid s) b (pdid s w) q = pdid s q) by (intros q Hq; apply upd_neq; intros ->; auto).
  assert (DS : forall n, In n (nodes s) -> dict s4 (sdid s n) = if mem (Pred s w) n then dput (Succ s n) b else Succ s n).
  { intros n Hn. rewrite Q5 by (intros q Hq; rewrite Hss by exact Hq; intros H; symmetry in H; apply (C n q) in H; auto; now apply (proj2 (E w Hw))).
    destruct (mem (Pred s w) n) eqn:Em.
    - apply mem_in in Em. specialize (P6 n Em). rewrite Hps in P6 by exact Em. exact P6.
    - apply mem_out in Em. apply P5. intros p Hp. rewrite Hps by exact Hp. intros H. apply Em. rewrite <- (A p n); auto. now apply (proj2 (F w Hw)). }
  assert (DP : forall n, In n (nodes s) -> dict s4 (pdid s n) = if mem (Succ s w) n then dput (Pred s n) e else Pred s n).
  { assert (D3 : forall n, In n (nodes s) -> dict s3 (pdid s n) = Pred s n).
    { intros n Hn. apply P5. intros p Hp. rewrite Hps by exact Hp. apply C; auto. now apply (proj2 (F w Hw)). }
    intros n Hn. destruct (mem (Succ s w) n) eqn:Em.
    - apply mem_in in Em. specialize (Q6 n Em). rewrite Hss in Q6 by exact Em. rewrite Q6. now rewrite D3.
    - apply mem_out in Em. rewrite Q5; [now apply D3|]. intros q Hq. rewrite Hss by exact Hq. intros H. apply Em. rewrite <- (B q n); auto. now apply (proj2 (E w Hw)). }
  split; [split; assumption|]. split; [|split; [|exact Q4]].
  - intros n Hn. unfold Succ at 1. rewrite Q1. destruct (Nat.eqb_spec n e) as [->|Hne].
    + rewrite upd_eq, DS by exact Hw. rewrite (proj2 (mem_out _ _) Hwp), (proj2 (mem_out _ _) Hpe). reflexivity.
    + rewrite upd_neq by exact Hne. now apply DS.
  - intros n Hn. unfold Pred at 1. rewrite Q2. destruct (Nat.eqb_spec n b) as [->|Hnb].
    + rewrite upd_eq, DP by exact Hw. rewrite (proj2 (mem_out _ _) Hww), (proj2 (mem_out _ _) Hsb). reflexivity.
    + rewrite upd_neq by exact Hnb. now apply DP.
Qed.
(** The new part gets the predecessors and successors of w, all else keeps its order. *)
Theorem C60_with s new b e w : wf s -> acyclic s -> fresh_part s new b e -> In w (nodes s) -> ~ In w new ->
  let s' := add_with s b e w in
  (Pred s' b = Pred s w /\ Succ s' e = Succ s w) /\
  (forall u v, ~ In u new -> ~ In v new -> precedes s' u v <-> precedes s u v) /\
  (forall u, ~ In u new -> precedes s' u b <-> precedes s u w) /\
  (forall v, ~ In v new -> precedes s' e v <-> precedes s w v).
Proof.
  intros W Hac [[Hb Nb] [He Ne] Hst Hen Hpath Hcl] Hw Nw. cbn zeta.
  assert (Hww : ~ In w (Succ s w)) by (intros H; apply (Hac w), t_step; split; auto).
  destruct (with_view s b e w W Hb He Hw) as (_ & ES & EP & En); try (intros ->; tauto); auto. set (s' := add_with s b e w) in *.
  assert (Hpe : ~ In e (Pred s w)) by (intros H; apply (wf_pred s W w Hw) in H as [_ H]; now rewrite Hen in H).
  assert (Hsb : ~ In b (Succ s w)) by (intros H; apply (wf_succ s W w Hw) in H as [_ H]; now rewrite Hst in H).
  split; [split; [rewrite EP, (proj2 (mem_out _ _) Hsb), Nat.eqb_refl by exact Hb; reflexivity|rewrite ES, (proj2 (mem_out _ _) Hpe), Nat.eqb_refl by exact He; reflexivity]|].
  assert (HE : forall u v, edge s' u v <-> edge s u v \/ (edge s u w /\ v = b) \/ (u = e /\ edge s w v)).
  { intros u v. unfold edge at 1. rewrite En. split.
    - intros [Hu Hv]. rewrite ES in Hv by exact Hu. destruct (mem (Pred s w) u) eqn:Em.
      + apply mem_in in Em. apply (edge_pred s u w W Hw) in Em. apply in_dput in Hv as [Hv| ->]; [left; split; auto|auto].
      + destruct (Nat.eqb_spec u e) as [->|Hne]; [right; right; split; [reflexivity|split; auto]|left; split; auto].
    - intros [[Hu Hv]|[[Hu ->]|[-> [_ Hv]]]].
      + split; [exact Hu|]. rewrite ES by exact Hu. destruct (mem (Pred s w) u); [apply in_dput; now left|]. destruct (Nat.eqb_spec u e) as [->|]; [now rewrite Hen in Hv|exact Hv].
      + split; [apply Hu|]. rewrite ES by apply Hu. rewrite (proj2 (mem_in _ _) (proj2 (edge_pred s u w W Hw) Hu)). apply in_dput. auto.
      + split; [exact He|]. rewrite ES by exact He. rewrite (proj2 (mem_out _ _) Hpe), Nat.eqb_refl. exact Hv. }
  assert (Hfwd : forall u v, precedes s u v -> precedes s' u v) by (apply precedes_mono; intros u v H; apply t_step, HE; auto).
  (* a path from outside: inside the new part it stands for w *)
  assert (Hback : forall u v, precedes s' u v -> ~ In u new -> (~ In v new -> precedes s u v) /\ (In v new -> precedes s u w)).
  { intros u v P. apply clos_trans_tn1_iff in P. induction P as [v H|y v H P IH]; intros Hu.
    - apply HE in H as [H|[[H ->]|[-> H]]]; [|split; [tauto|intros _; now apply t_step]|tauto].
      split; [intros _; now apply t_step|]. intros Hv. exfalso. apply Hu. now apply (Hcl u v H).
    - destruct (IH Hu) as [I1 I2]. apply HE in H as [H|[[H ->]|[-> H]]].
      + destruct (in_dec Nat.eq_dec y new) as [Hy|Hy].
        * assert (Hv : In v new) by now apply (Hcl y v H). split; [tauto|auto].
        * assert (Hv : ~ In v new) by (intros Hv; apply Hy; now apply (Hcl y v H)). split; [|tauto]. intros _. eapply t_trans; [now apply I1|now apply t_step].
      + assert (Hy : ~ In y new) by (intros Hy; apply Nw; now apply (Hcl y w H)). split; [tauto|]. intros _. eapply t_trans; [now apply I1|now apply t_step].
      + assert (Hv : ~ In v new) by (intros Hv; apply Nw; now apply (Hcl w v H)). split; [|tauto]. intros _. eapply t_trans; [now apply I2|now apply t_step]. }
  split; [intros u v Hu Hv; split; [intros P; now apply Hback|apply Hfwd]|]. split.
  - intros u Hu. split; [intros P; now apply (Hback u b P Hu)|]. intros P. apply clos_trans_tn1_iff in P. inversion P as [H|y ? H Q]; subst.
    + apply t_step, HE. auto.
    + apply clos_trans_tn1_iff in Q. eapply t_trans; [apply Hfwd; exact Q|apply t_step, HE; auto].
  - intros v Hv. split.
    + intros P. apply clos_trans_t1n_iff in P. inversion P as [? H|y ? H Q]; subst.
      * apply HE in H as [H|[[H ->]|[_ H]]]; [exfalso; apply Hv; now apply (Hcl e v H)|tauto|now apply t_step].
      * apply clos_trans_t1n_iff in Q. apply HE in H as [H|[[H ->]|[_ H]]].
        -- destruct H as [_ H]. now rewrite Hen in H.
        -- exfalso. apply Nw. now apply (Hcl e w H).
        -- assert (Hy : ~ In y new) by (intros Hy; apply Nw; now apply (Hcl w y H)). eapply t_trans; [apply t_step; exact H|]. now apply (Hback y v Q Hy).
    + intros P. apply clos_trans_t1n_iff in P. inversion P as [? H|y ? H Q]; subst.
      * apply t_step, HE. auto.
      * apply clos_trans_t1n_iff in Q. apply (t_trans _ _ e y v); [apply t_step, HE; auto|now apply Hfwd].
Qed.
Print Assumptions C60_with.

(** Afterwards the two parallel phases share their dictionaries, and a phase can no longer
    be added directly after a common predecessor, or directly before a common successor. *)
Lemma relink_gone l : forall s x e q d, e <> x -> ~ In x (dict s d) -> In q l -> pdid s q = d -> relink_succs s l x e = None.
Proof.
  induction l as [|r t IH]; intros s x e q d Hex Hd Hq Hqd; [destruct Hq|]. cbn [relink_succs]. unfold del. destruct (mem (dict s (pdid s r)) x) eqn:Em; [|reflexivity]. apply mem_in in Em.
  destruct Hq as [->|Hq]; [rewrite Hqd in Em; contradiction|].
  apply (IH _ x e q d Hex); [|exact Hq|exact Hqd]. unfold put. cbn [dict pdid]. assert (pdid s r <> d) by congruence. rewrite !upd_neq by auto. exact Hd.
Qed.
Lemma relink_shared l : forall s x e q r, e <> x -> NoDup l -> In q l -> In r l -> q <> r -> pdid s q = pdid s r -> relink_succs s l x e = None.
Proof.
  induction l as [|y t IH]; intros s x e q r Hex Hnd Hq Hr Hqr Hd; [destruct Hq|]. inversion Hnd as [|? ? Hy Ht]; subst. cbn [relink_succs]. unfold del.
  destruct (mem (dict s (pdid s y)) x); [|reflexivity]. set (s1 := PG _ _ _ _ _).
  assert (Hgone : ~ In x (dict (put s1 (pdid s1 y) e) (pdid s y))).
  { unfold put, s1. cbn [dict pdid]. rewrite !upd_eq. rewrite in_dput, in_dremove. intros [[_ H]|H]; congruence. }
  destruct Hq as [->|Hq]; [destruct Hr as [->|Hr]; [congruence|]; apply (relink_gone t _ x e r (pdid s q)); auto|].
  destruct Hr as [->|Hr]; [apply (relink_gone t _ x e q (pdid s r)); auto|].
  apply (IH _ x e q r); auto.
Qed.
Theorem C60_parallel_keyerror s new b e w x n : wf s -> acyclic s -> fresh_part s new b e -> In w (nodes s) -> ~ In w new -> ~ In n (nodes s) ->
  (In x (Pred s w) -> add_after (new_node (add_with s b e w) n) n n x = None) /\
  (In x (Succ s w) -> add_before (new_node (add_with s b e w) n) n n x = None).
Proof.
  intros W Hac [[Hb Nb] [He Ne] Hst Hen Hpath Hcl] Hw Nw Hn.
  assert (Hww : ~ In w (Succ s w)) by (intros H; apply (Hac w), t_step; split; auto).
  destruct (with_view s b e w W Hb He Hw) as ([Hpd Hsd] & ES & EP & En); try (intros ->; tauto); auto. set (s' := add_with s b e w) in *.
  assert (Hlt : forall m, In m (nodes s) -> sdid s m < nextd s /\ pdid s m < nextd s) by apply (wf_lt s W).
  assert (Hnx : nextd s' = nextd s).
  { unfold s', add_with. match goal with |- nextd (fold_left _ ?l (fold_left _ ?k ?z)) = _ =>
      destruct (puts_view k z b sdid (or_introl eq_refl)) as (_ & _ & P3 & _); destruct (puts_view l (fold_left (fun s p => put s (sdid s p) b) k z) e pdid (or_intror eq_refl)) as (_ & _ & Q3 & _) end.
    rewrite Q3, P3. reflexivity. }
  assert (Hbw : b <> w) by (intros ->; tauto). assert (Hew : e <> w) by (intros ->; tauto).
  split; intros Hx.
  - assert (Hxn : In x (nodes s)) by now apply (wf_pred s W w Hw). assert (Hxw : edge s x w) by now apply edge_pred. assert (Nx : ~ In x new) by (intros H; apply Nw; now apply (Hcl x w Hxw)).
    assert (Hxe : x <> e) by (intros ->; tauto). assert (Hxn' : n <> x) by (intros ->; tauto).
    unfold add_after. set (s1 := new_node s' n). set (s2 := PG _ _ _ _ _). set (s3 := put s2 (pdid s2 n) x).
    assert (HS : Succ s3 x = dput (Succ s x) b).
    { unfold Succ at 1, s3, s2, s1, put, new_node. cbn [sdid pdid dict]. assert (sdid s' x = sdid s x) as Hsx by (rewrite Hsd; now apply upd_neq).
      rewrite (upd_neq _ n x) by auto. rewrite (upd_neq _ n x) by auto. rewrite Hsx, Hnx. destruct (Hlt x Hxn).
      rewrite upd_eq. rewrite !upd_neq by lia. pose proof (ES x Hxn) as Ex. rewrite (proj2 (mem_in _ _) Hx) in Ex. unfold Succ at 1 in Ex. now rewrite Hsx in Ex. }
    rewrite HS. rewrite (relink_shared (dput (Succ s x) b) s3 x n b w); auto.
    + apply nodup_dput. now apply (wf_succ s W x Hxn).
    + apply in_dput. auto.
    + apply in_dput. left. now apply Hxw.
    + unfold s3, s2, s1, put, new_node. cbn [sdid pdid dict]. rewrite Hpd. rewrite !(upd_neq _ n) by (intros ->; auto). rewrite upd_eq. now rewrite upd_neq by auto.
  - assert (Hxn : In x (nodes s)) by now apply (wf_succ s W w Hw). assert (Hxw : edge s w x) by (split; auto). assert (Nx : ~ In x new) by (intros H; apply Nw; now apply (Hcl w x Hxw)).
    assert (Hxb : x <> b) by (intros ->; tauto). assert (Hxn' : n <> x) by (intros ->; tauto).
    assert (Hfl : add_before (new_node s' n) n n x = option_map flip (add_after (flip (new_node s' n)) n n x)).
    { rewrite after_flip, flip_flip. destruct (add_before (new_node s' n) n n x) as [z|]; cbn; [now rewrite flip_flip|reflexivity]. }
    rewrite Hfl.
    unfold add_after. set (s1 := flip (new_node s' n)). set (s2 := PG _ _ _ _ _). set (s3 := put s2 (pdid s2 n) x).
    assert (HS : Succ s3 x = dput (Pred s x) e).
    { unfold Succ at 1, s3, s2, s1, put, new_node, flip. cbn [sdid pdid dict]. assert (pdid s' x = pdid s x) as Hsx by (rewrite Hpd; now apply upd_neq).
      rewrite (upd_neq _ n x) by auto. rewrite (upd_neq _ n x) by auto. rewrite Hsx, Hnx. destruct (Hlt x Hxn).
      rewrite upd_eq. rewrite !upd_neq by lia. pose proof (EP x Hxn) as Ex. rewrite (proj2 (mem_in _ _) Hx) in Ex. unfold Pred at 1 in Ex. now rewrite Hsx in Ex. }
    rewrite HS. rewrite (relink_shared (dput (Pred s x) e) s3 x n e w); auto.
    + apply nodup_dput. now apply (wf_pred s W x Hxn).
    + apply in_dput. auto.
    + apply in_dput. left. now apply edge_pred.
    + unfold s3, s2, s1, put, new_node, flip. cbn [sdid pdid dict]. rewrite Hsd. rewrite !(upd_neq _ n) by (intros ->; auto). rewrite upd_eq. now rewrite upd_neq by auto.
Qed.
Print Assumptions C60_parallel_keyerror.
(** Between two adjacent phases: always an error. *)
Theorem C60_between_adjacent_keyerror imp fuel s b e a x : wf s -> acyclic s -> edge s a x -> In x (nodes s) -> In b (nodes s) -> In e (nodes s) -> e <> x -> a <> b -> forall s', add_between imp fuel s b e a x <> Done s'.
Proof.
  intros W Hac Hax Hx Hb He Hex Hab s'. unfold add_between. destruct (is_before imp fuel s a x) as [[]|]; try discriminate.
  set (s1 := put s _ _). set (s2 := put s1 _ _). set (s3 := put s2 _ _). set (s4 := put s3 _ _).
  assert (Ha : In a (nodes s)) by apply Hax. assert (Hne : a <> x) by (intros ->; apply (Hac x); now apply t_step).
  assert (Hno : ~ In a (Succ s x)) by (intros H; apply (Hac a); eapply t_trans; apply t_step; [exact Hax|split; auto]).
  destruct (wf_lt s W x Hx).
  assert (HS : Succ s4 x = Succ s x).
  { unfold Succ at 1, s4, s3, s2, s1, put. cbn [sdid pdid dict].
    rewrite upd_neq by (intros H1; now apply (wf_sp s W x x Hx Hx) in H1). rewrite upd_neq by (intros H1; apply Hne; symmetry; now apply (wf_s s W)).
    rewrite upd_neq by (intros H1; apply Hex; symmetry; now apply (wf_s s W)). rewrite upd_neq by (intros H1; now apply (wf_sp s W x b Hx Hb) in H1). reflexivity. }
  assert (Hin : In x (Succ s4 a)).
  { unfold Succ, s4, s3, s2, s1, put. cbn [sdid pdid dict]. rewrite upd_neq by (intros H1; now apply (wf_sp s W a x Ha Hx) in H1). rewrite upd_eq. apply in_dput. left.
    destruct (Nat.eq_dec (sdid s a) (sdid s e)) as [E|E]; [rewrite E, upd_eq; apply in_dput; now right|]. rewrite upd_neq by exact E.
    rewrite upd_neq by (intros H1; now apply (wf_sp s W a b Ha Hb) in H1). apply Hax. }
  rewrite (proj2 (mem_in _ _) Hin). unfold del at 1. change (dict s4 (sdid s4 a)) with (Succ s4 a). rewrite (proj2 (mem_in _ _) Hin).
  unfold del. cbn [sdid dict]. rewrite upd_neq; [|unfold s4, s3, s2, s1, put; cbn [sdid]; intros E; apply Hne; symmetry; now apply (wf_s s W)].
  change (dict s4 (sdid s4 x)) with (Succ s4 x). rewrite HS, (proj2 (mem_out _ _) Hno). discriminate.
Qed.
Print Assumptions C60_between_adjacent_keyerror.

(** *** Linear schedules: the graph is a list *)
Definition first (l : list nat) : list nat := match l with [] => [] | x :: _ => [x] end.
Fixpoint links (s : pg) (o l : list nat) : Prop :=
  match l with [] => True | x :: t => Pred s x = o /\ Succ s x = first t /\ links s [x] t end.
(** [chain s l]: the nodes of s are those of l, each linked to its two neighbours and to
    nothing else. *)
Definition chain (s : pg) (l : list nat) : Prop := wf s /\ NoDup l /\ (forall n, In n (nodes s) <-> In n l) /\ links s [] l.

Lemma links_ext s s' l : forall o, (forall n, In n l -> Succ s' n = Succ s n /\ Pred s' n = Pred s n) -> links s o l -> links s' o l.
Proof.
  induction l as [|x t IH]; intros o H; cbn; auto. intros (A & B & C). destruct (H x (or_introl eq_refl)) as [-> ->]. repeat split; auto. apply IH; auto. intros n Hn. apply H. now right.
Qed.
Lemma links_insert s s' p n x l2 l1 : forall o, NoDup (l1 ++ p :: x :: l2) -> links s o (l1 ++ p :: x :: l2) ->
  (forall m, In m (l1 ++ p :: x :: l2) -> m <> p -> Succ s' m = Succ s m) -> (forall m, In m (l1 ++ p :: x :: l2) -> m <> x -> Pred s' m = Pred s m) ->
  Succ s' p = [n] -> Pred s' x = [n] -> Succ s' n = [x] -> Pred s' n = [p] -> links s' o (l1 ++ p :: n :: x :: l2).
Proof.
  induction l1 as [|y t IH]; intros o Hnd L HS HP E1 E2 E3 E4.
  - cbn in *. destruct L as (A & B & C & D & F). inversion Hnd as [|? ? Hp Hnd']; subst. inversion Hnd' as [|? ? Hx Hnd'']; subst.
    assert (p <> x) by (intros ->; apply Hp; now left). repeat split; auto.
    + rewrite HS; auto.
    + apply (links_ext s s' l2); auto. intros m Hm. split; [apply HS|apply HP]; auto; intros ->; [apply Hp; now right|auto].
  - cbn [app links] in *. destruct L as (A & B & C). inversion Hnd as [|? ? Hy Hnd']; subst.
    assert (y <> p) by (intros ->; apply Hy, in_app_iff; right; now left). assert (y <> x) by (intros ->; apply Hy, in_app_iff; right; right; now left).
    split; [now apply HP; [left|]|]. split; [rewrite HS by (auto; now left); rewrite B; now destruct t|].
    apply IH; auto; intros m Hm; [apply HS|apply HP]; now right.
Qed.
Lemma links_at s x l2 l1 : forall o, links s o (l1 ++ x :: l2) -> Succ s x = first l2 /\ Pred s x = match rev l1 with [] => o | p :: _ => [p] end /\ links s (Pred s x) (x :: l2).
Proof.
  induction l1 as [|y t IH]; intros o.
  - cbn. intros (A & B & C). subst. auto.
  - cbn [app links]. intros (_ & _ & L). apply IH in L as (A & B & C). split; [exact A|]. split; [|exact C]. rewrite B. cbn [rev]. destruct (rev t); reflexivity.
Qed.

(** Specification: insertion into a list. *)
Fixpoint ins_before (x n : nat) (l : list nat) : list nat := match l with [] => [] | y :: t => if Nat.eqb y x then n :: y :: t else y :: ins_before x n t end.
Fixpoint ins_after (x n : nat) (l : list nat) : list nat := match l with [] => [] | y :: t => if Nat.eqb y x then y :: n :: t else y :: ins_after x n t end.
Definition place (tend n : nat) (w : where_) (l : list nat) : list nat :=
  match w with AtEnd => ins_before tend n l | Before x => ins_before x n l | After x => ins_after x n l | With _ => l end.
Lemma ins_before_at x n l1 l2 : ~ In x l1 -> ins_before x n (l1 ++ x :: l2) = l1 ++ n :: x :: l2.
Proof. induction l1 as [|y t IH]; cbn; intros H; [now rewrite Nat.eqb_refl|]. destruct (Nat.eqb_spec y x); [tauto|]. now rewrite IH by tauto. Qed.
Lemma ins_after_at x n l1 l2 : ~ In x l1 -> ins_after x n (l1 ++ x :: l2) = l1 ++ x :: n :: l2.
Proof. induction l1 as [|y t IH]; cbn; intros H; [now rewrite Nat.eqb_refl|]. destruct (Nat.eqb_spec y x); [tauto|]. now rewrite IH by tauto. Qed.

(** *** New nodes *)
Lemma new_node_view s n : wf s -> ~ In n (nodes s) ->
  wf (new_node s n) /\ Succ (new_node s n) n = [] /\ Pred (new_node s n) n = [] /\ (forall m, In m (nodes s) -> Succ (new_node s n) m = Succ s m /\ Pred (new_node s n) m = Pred s m).
Proof.
  intros W Hn. pose proof W as [A B C D E F].
  assert (V : Succ (new_node s n) n = [] /\ Pred (new_node s n) n = [] /\ (forall m, In m (nodes s) -> Succ (new_node s n) m = Succ s m /\ Pred (new_node s n) m = Pred s m)).
  { unfold Succ, Pred, new_node. cbn [sdid pdid dict]. rewrite !upd_eq. split; [rewrite upd_neq by lia; apply upd_eq|]. split; [reflexivity|].
    intros m Hm. destruct (D m Hm). assert (m <> n) by (intros ->; tauto). rewrite !(upd_neq _ n) by auto. now rewrite !upd_neq by lia. }
  split; [|exact V]. destruct V as (V1 & V2 & V3). constructor.
  - intros m k [<-|Hm] [<-|Hk]; cbn [new_node sdid]; auto; rewrite ?upd_eq.
    + rewrite upd_neq by (intros ->; tauto). destruct (D k Hk). lia.
    + rewrite upd_neq by (intros ->; tauto). destruct (D m Hm). lia.
    + rewrite !upd_neq by (intros ->; tauto). now apply A.
  - intros m k [<-|Hm] [<-|Hk]; cbn [new_node pdid]; auto; rewrite ?upd_eq.
    + rewrite upd_neq by (intros ->; tauto). destruct (D k Hk). lia.
    + rewrite upd_neq by (intros ->; tauto). destruct (D m Hm). lia.
    + rewrite !upd_neq by (intros ->; tauto). now apply B.
  - intros m k [<-|Hm] [<-|Hk]; cbn [new_node sdid pdid]; rewrite ?upd_eq; [lia| | |].
    + rewrite upd_neq by (intros ->; tauto). destruct (D k Hk). lia.
    + rewrite upd_neq by (intros ->; tauto). destruct (D m Hm). lia.
    + rewrite !upd_neq by (intros ->; tauto). now apply C.
  - intros m [<-|Hm]; cbn [new_node sdid pdid nextd]; rewrite ?upd_eq; [lia|]. rewrite !upd_neq by (intros ->; tauto). destruct (D m Hm). lia.
  - intros m [<-|Hm]; [rewrite V1; split; [constructor|intros k []]|]. rewrite (proj1 (V3 m Hm)). split; [now apply E|]. intros k Hk. destruct (proj2 (E m Hm) k Hk) as [H1 H2]. split; [now right|now rewrite (proj2 (V3 k H1))].
  - intros m [<-|Hm]; [rewrite V2; split; [constructor|intros k []]|]. rewrite (proj2 (V3 m Hm)). split; [now apply F|]. intros k Hk. destruct (proj2 (F m Hm) k Hk) as [H1 H2]. split; [now right|now rewrite (proj1 (V3 k H1))].
Qed.
Definition empty : pg := PG (fun _ => 0) (fun _ => 0) (fun _ => []) 0 [].
Lemma empty_wf : wf empty.
Proof. constructor; cbn; intros; tauto. Qed.
Lemma schedule_chain top tend : top <> tend -> chain (new_schedule empty top tend) [top; tend].
Proof.
  intros Hne.
  assert (V : Succ (new_schedule empty top tend) top = [tend] /\ Pred (new_schedule empty top tend) top = [] /\ Succ (new_schedule empty top tend) tend = [] /\ Pred (new_schedule empty top tend) tend = [top]).
  { unfold Succ, Pred, new_schedule, put, new_node, empty. cbn [sdid pdid dict nextd nodes]. rewrite !upd_eq. rewrite !(upd_neq _ tend top) by auto. rewrite !upd_eq. repeat split; reflexivity. }
  destruct V as (V1 & V2 & V3 & V4).
  assert (N : nodes (new_schedule empty top tend) = [tend; top]) by reflexivity.
  split; [|split; [|split; [intros n; rewrite N; cbn; tauto|cbn; tauto]]].
  - assert (S1 : sdid (new_schedule empty top tend) top = 0) by (cbn; now rewrite upd_neq, upd_eq). assert (S2 : sdid (new_schedule empty top tend) tend = 2) by (cbn; now rewrite upd_eq).
    assert (S3 : pdid (new_schedule empty top tend) top = 1) by (cbn; now rewrite upd_neq, upd_eq). assert (S4 : pdid (new_schedule empty top tend) tend = 3) by (cbn; now rewrite upd_eq).
    constructor.
    + intros n m [<-|[<-|[]]] [<-|[<-|[]]]; congruence.
    + intros n m [<-|[<-|[]]] [<-|[<-|[]]]; congruence.
    + intros n m [<-|[<-|[]]] [<-|[<-|[]]]; congruence.
    + assert (nextd (new_schedule empty top tend) = 4) as -> by reflexivity. intros n [<-|[<-|[]]]; lia.
    + intros n [<-|[<-|[]]]; [rewrite V3; split; [constructor|intros m []]|]. rewrite V1. split; [repeat constructor; auto|]. intros m [<-|[]]. rewrite V4, N. cbn. auto.
    + intros n [<-|[<-|[]]]; [|rewrite V2; split; [constructor|intros m []]]. rewrite V4. split; [repeat constructor; auto|]. intros m [<-|[]]. rewrite V1, N. cbn. auto.
  - repeat constructor; cbn; intuition.
Qed.

(** *** Every construction of a linear schedule *)
Definition op := (nat * where_)%type.
(** A new phase n is created and added to the schedule. *)
Definition do_op (top tend : nat) (s : pg) (o : op) : res := add (new_node s (fst o)) top tend (fst o) (fst o) (snd o).
Fixpoint do_ops (top tend : nat) (s : pg) (l : list op) : res :=
  match l with [] => Done s | o :: t => match do_op top tend s o with Done s => do_ops top tend s t | r => r end end.
Definition valid1 (top tend : nat) (l : list nat) (o : op) : Prop :=
  ~ In (fst o) l /\ match snd o with AtEnd => True | Before x => In x l /\ x <> top | After x => In x l /\ x <> tend | With _ => False end.
Fixpoint valid (top tend : nat) (l : list nat) (os : list op) : Prop :=
  match os with [] => True | o :: t => valid1 top tend l o /\ valid top tend (place tend (fst o) (snd o) l) t end.

Lemma chain_step s l1 p x l2 n : chain s (l1 ++ p :: x :: l2) -> ~ In n (l1 ++ p :: x :: l2) ->
  (exists s', add_before (new_node s n) n n x = Some s' /\ chain s' (l1 ++ p :: n :: x :: l2)) /\
  (exists s', add_after (new_node s n) n n p = Some s' /\ chain s' (l1 ++ p :: n :: x :: l2)).
Proof.
  intros (W & Hnd & HN & L) Hn. assert (Hnn : ~ In n (nodes s)) by (rewrite HN; exact Hn).
  destruct (new_node_view s n W Hnn) as (W1 & V1 & V2 & V3). set (s1 := new_node s n) in *.
  assert (Hx : In x (nodes s)) by (apply HN, in_app_iff; cbn; auto). assert (Hp : In p (nodes s)) by (apply HN, in_app_iff; cbn; auto).
  assert (N1 : nodes s1 = n :: nodes s) by reflexivity.
  assert (Hnx : n <> x) by (intros ->; tauto). assert (Hnp : n <> p) by (intros ->; tauto).
  destruct (links_at s p (x :: l2) l1 [] L) as (Lp & _ & Lr). cbn in Lp. destruct Lr as (_ & _ & (Lx & _ & _)).
  assert (Hnd' : NoDup (l1 ++ p :: n :: x :: l2)).
  { replace (l1 ++ p :: n :: x :: l2) with ((l1 ++ [p]) ++ n :: x :: l2) by (rewrite <- app_assoc; reflexivity). apply NoDup_Add with (a := n) (l := (l1 ++ [p]) ++ x :: l2).
    - apply Add_app.
    - rewrite <- app_assoc. split; assumption. }
  assert (HN' : forall m, In m (n :: nodes s) <-> In m (l1 ++ p :: n :: x :: l2)).
  { intros m. rewrite in_app_iff. cbn. rewrite HN, in_app_iff. cbn. tauto. }
  assert (Hpx : p <> x) by (intros ->; apply NoDup_remove_2 in Hnd; apply Hnd, in_app_iff; right; now left).
  split.
  - destruct (before_view s1 n n x W1) as (s' & E & En & ES & EP & W'); auto; try (rewrite N1; cbn; auto; fail).
    + rewrite (proj2 (V3 x Hx)), Lx. intros [|[]]; auto.
    + rewrite V1. auto.
    + exists s'. split; [exact E|]. split; [exact W'|]. split; [exact Hnd'|]. split; [now rewrite En, N1|].
      rewrite (proj2 (V3 x Hx)), Lx in *. apply (links_insert s s' p n x l2 l1); auto.
      * intros m Hm Hmp. rewrite ES by (rewrite N1; right; now apply HN). cbn [mem existsb]. destruct (Nat.eqb_spec m p); [contradiction|]. cbn [orb].
        destruct (Nat.eqb_spec m n) as [->|]; [contradiction|]. now apply V3, HN.
      * intros m Hm Hmx. rewrite EP by (rewrite N1; right; now apply HN). destruct (Nat.eqb_spec m x); [contradiction|]. destruct (Nat.eqb_spec m n) as [->|]; [contradiction|]. now apply V3, HN.
      * rewrite ES by (rewrite N1; now right). cbn [mem existsb]. rewrite Nat.eqb_refl. cbn [orb]. rewrite (proj1 (V3 p Hp)), Lp. unfold dremove. cbn [filter]. rewrite Nat.eqb_refl. reflexivity.
      * rewrite EP by (rewrite N1; now right). now rewrite Nat.eqb_refl.
      * rewrite ES by (rewrite N1; now left). cbn [mem existsb]. destruct (Nat.eqb_spec n p); [contradiction|]. cbn [orb]. now rewrite Nat.eqb_refl, V1.
      * rewrite EP by (rewrite N1; now left). destruct (Nat.eqb_spec n x); [contradiction|]. now rewrite Nat.eqb_refl.
  - destruct (after_view s1 n n p W1) as (s' & E & En & EP & ES & W'); auto; try (rewrite N1; cbn; auto; fail).
    + rewrite (proj1 (V3 p Hp)), Lp. intros [|[]]; auto.
    + rewrite V2. auto.
    + exists s'. split; [exact E|]. split; [exact W'|]. split; [exact Hnd'|]. split; [now rewrite En, N1|].
      rewrite (proj1 (V3 p Hp)), Lp in *. apply (links_insert s s' p n x l2 l1); auto.
      * intros m Hm Hmp. rewrite ES by (rewrite N1; right; now apply HN). destruct (Nat.eqb_spec m p); [contradiction|]. destruct (Nat.eqb_spec m n) as [->|]; [contradiction|]. now apply V3, HN.
      * intros m Hm Hmx. rewrite EP by (rewrite N1; right; now apply HN). cbn [mem existsb]. destruct (Nat.eqb_spec m x); [contradiction|]. cbn [orb].
        destruct (Nat.eqb_spec m n) as [->|]; [contradiction|]. now apply V3, HN.
      * rewrite ES by (rewrite N1; now right). now rewrite Nat.eqb_refl.
      * rewrite EP by (rewrite N1; now right). cbn [mem existsb]. rewrite Nat.eqb_refl. cbn [orb]. rewrite (proj2 (V3 x Hx)), Lx. unfold dremove. cbn [filter]. rewrite Nat.eqb_refl. reflexivity.
      * rewrite ES by (rewrite N1; now left). destruct (Nat.eqb_spec n p); [contradiction|]. now rewrite Nat.eqb_refl.
      * rewrite EP by (rewrite N1; now left). cbn [mem existsb]. destruct (Nat.eqb_spec n x); [contradiction|]. cbn [orb]. now rewrite Nat.eqb_refl, V2.
Qed.
Definition bounded (top tend : nat) (l : list nat) : Prop := exists m, l = top :: m ++ [tend].
Lemma split_before top tend l x : bounded top tend l -> NoDup l -> In x l -> x <> top -> exists l1 p l2, l = l1 ++ p :: x :: l2 /\ ~ In x (l1 ++ [p]).
Proof.
  intros [m ->] Hnd Hx Hxt. destruct Hx as [Hx|Hx]; [congruence|]. apply in_split in Hx as (k1 & k2 & E).
  destruct (exists_last (l := top :: k1)) as (k & p & Ek); [discriminate|]. exists k, p, k2. rewrite E in *.
  change (top :: k1 ++ x :: k2) with ((top :: k1) ++ x :: k2) in *. rewrite Ek in *. rewrite <- app_assoc in *. split; [reflexivity|].
  change (p :: x :: k2) with ([p] ++ x :: k2) in Hnd. rewrite app_assoc in Hnd. apply NoDup_remove_2 in Hnd. intros H. apply Hnd, in_app_iff. now left.
Qed.
Lemma split_after top tend l x : bounded top tend l -> NoDup l -> In x l -> x <> tend -> exists l1 p l2, l = l1 ++ x :: p :: l2 /\ ~ In x l1.
Proof.
  intros [m ->] Hnd Hx Hxt. apply in_split in Hx as (k1 & k2 & E). rewrite E in *. assert (~ In x k1) by (apply NoDup_remove_2 in Hnd; intros H; apply Hnd, in_app_iff; now left).
  destruct k2 as [|p k2]; [|now exists k1, p, k2]. exfalso. change (top :: m ++ [tend]) with ((top :: m) ++ [tend]) in E. apply app_inj_tail in E as [_ E]. congruence.
Qed.
Lemma bounded_insert top tend l1 p n x l2 : bounded top tend (l1 ++ p :: x :: l2) -> bounded top tend (l1 ++ p :: n :: x :: l2).
Proof.
  intros [m E]. assert (exists k, x :: l2 = k ++ [tend]) as [k Ek].
  { destruct (exists_last (l := x :: l2)) as (k & z & Ek); [discriminate|]. exists k. rewrite Ek in *. change (p :: k ++ [z]) with ((p :: k) ++ [z]) in E. rewrite app_assoc in E. change (top :: m ++ [tend]) with ((top :: m) ++ [tend]) in E. apply app_inj_tail in E as [_ ->]. reflexivity. }
  rewrite Ek in *. destruct l1 as [|y l1]; cbn in *.
  - injection E as -> _. exists (n :: k). reflexivity.
  - injection E as -> _. exists (l1 ++ p :: n :: k). now rewrite <- app_assoc.
Qed.
Theorem C60_linear top tend os : top <> tend -> valid top tend [top; tend] os ->
  exists s, do_ops top tend (new_schedule empty top tend) os = Done s /\ chain s (fold_left (fun l o => place tend (fst o) (snd o) l) os [top; tend]).
Proof.
  intros Hne. assert (G : forall os s l, bounded top tend l -> chain s l -> valid top tend l os -> exists s', do_ops top tend s os = Done s' /\ chain s' (fold_left (fun l o => place tend (fst o) (snd o) l) os l)).
  { clear os. induction os as [|[n w] t IH]; intros s l Hb Hc Hv; [exists s; auto|]. cbn [valid do_ops fold_left fst snd] in *. destruct Hv as [[Hn Hw] Hv]. cbn [fst snd] in Hn, Hw.
    assert (Hnd : NoDup l) by apply Hc.
    assert (Step : exists s', do_op top tend s (n, w) = Done s' /\ chain s' (place tend n w l) /\ bounded top tend (place tend n w l)).
    { unfold do_op, add. cbn [fst snd].
      assert (HB : forall x, In x l -> x <> top -> exists s', match add_before (new_node s n) n n x with Some s => Done s | None => KeyErr end = Done s' /\ chain s' (ins_before x n l) /\ bounded top tend (ins_before x n l)).
      { intros x Hx Hxt. destruct (split_before top tend l x Hb Hnd Hx Hxt) as (l1 & p & l2 & -> & Hnx). destruct (chain_step s l1 p x l2 n Hc Hn) as [(s' & E & C') _]. exists s'. rewrite E. split; [reflexivity|].
        replace (ins_before x n (l1 ++ p :: x :: l2)) with (l1 ++ p :: n :: x :: l2); [split; [exact C'|now apply bounded_insert]|].
        change (p :: x :: l2) with ([p] ++ x :: l2). rewrite app_assoc, (ins_before_at x n (l1 ++ [p]) l2 Hnx). rewrite <- app_assoc. reflexivity. }
      destruct w as [|w|x|x]; [|destruct Hw| |].
      - apply HB; [|auto]. destruct Hb as [m ->]. right. apply in_app_iff. right. now left.
      - destruct Hw as [Hx Hxt]. destruct (Nat.eqb_spec x top); [contradiction|]. now apply HB.
      - destruct Hw as [Hx Hxt]. destruct (Nat.eqb_spec x tend); [contradiction|]. cbn [place]. destruct (split_after top tend l x Hb Hnd Hx Hxt) as (l1 & p & l2 & -> & Hnx).
        destruct (chain_step s l1 x p l2 n Hc Hn) as [_ (s' & E & C')]. exists s'. rewrite E. split; [reflexivity|]. rewrite ins_after_at by exact Hnx. split; [exact C'|]. now apply bounded_insert. }
    destruct Step as (s' & E & C' & B'). rewrite E. now apply IH. }
  apply G; [exists []; reflexivity|now apply schedule_chain].
Qed.
Print Assumptions C60_linear.

(** *** Queries *)
Section Queries.
Context (imp : nat -> option nat).
(** On a linear schedule the queries are exact, for nodes as for IMPs: some later (earlier)
    node is the phase asked for. *)
Lemma find_succ s q l2 : forall n o k, links s o (n :: l2) -> length l2 < k -> find_first imp k (Succ s) n q = Some (find (fun m => is_ imp m q) (n :: l2)).
Proof.
  induction l2 as [|m t IH]; intros n o k L Hk; (destruct k as [|k]; [cbn in Hk; lia|]); cbn [find_first find]; destruct (is_ imp n q); auto; destruct L as (_ & L & L').
  - cbn in L. now rewrite L.
  - cbn in L. rewrite L. rewrite (IH m [n] k L'); [reflexivity|]. cbn in Hk. lia.
Qed.
Lemma find_pred s q l1 : forall n l2 k, links s [] (rev l1 ++ n :: l2) -> length l1 < k -> find_first imp k (Pred s) n q = Some (find (fun m => is_ imp m q) (n :: l1)).
Proof.
  induction l1 as [|m t IH]; intros n l2 k L Hk; (destruct k as [|k]; [cbn in Hk; lia|]); cbn [find_first find]; destruct (is_ imp n q); auto; pose proof (links_at _ _ _ _ _ L) as (_ & P & _); rewrite rev_involutive in P; cbn in P; rewrite P; [reflexivity|].
  rewrite (IH m (n :: l2) k); [reflexivity| |cbn in Hk; lia]. cbn [rev] in L. rewrite <- app_assoc in L. exact L.
Qed.
Lemma find_some_iff f (l : list nat) : (match find f l with Some _ => true | None => false end) = existsb f l.
Proof. induction l as [|x t IH]; cbn; [reflexivity|]. destruct (f x); auto. Qed.
Theorem C60_query s l1 n l2 q fuel : chain s (l1 ++ n :: l2) -> length (l1 ++ n :: l2) <= fuel ->
  is_before imp fuel s n q = Some (negb (is_ imp n q) && existsb (fun m => is_ imp m q) l2) /\
  is_after imp fuel s n q = Some (negb (is_ imp n q) && existsb (fun m => is_ imp m q) l1).
Proof.
  intros (_ & _ & _ & L) Hf. rewrite app_length in Hf. cbn in Hf. unfold is_before, is_after. destruct (is_ imp n q) eqn:En; [auto|].
  pose proof (links_at _ _ _ _ _ L) as (_ & _ & L'). rewrite (find_succ s q l2 n _ fuel L') by lia.
  rewrite <- (rev_involutive l1) in L. rewrite (find_pred s q (rev l1) n l2 fuel L) by (rewrite rev_length; lia).
  cbn [option_map find]. rewrite En, !find_some_iff. cbn [negb andb]. split; [reflexivity|]. f_equal. apply eq_iff_eq_true. rewrite !existsb_exists. split; intros (m & Hm & E); exists m; (split; [|exact E]); [now apply in_rev in Hm|now apply in_rev; rewrite rev_involutive].
Qed.
(** On any graph a positive answer is right. *)
Lemma find_sound s q k : forall n r, In n (nodes s) -> (forall u v, edge s u v -> In v (nodes s)) -> find_first imp k (Succ s) n q = Some (Some r) -> is_ imp r q = true /\ (n = r \/ precedes s n r).
Proof.
  induction k as [|k IH]; intros n r Hn Hcl; cbn; [discriminate|]. destruct (is_ imp n q) eqn:En; [intros [= <-]; auto|].
  destruct (Succ s n) as [|m t] eqn:Es; [discriminate|]. intros H. assert (He : edge s n m) by (split; [exact Hn|rewrite Es; now left]).
  destruct (IH m r (Hcl n m He) Hcl H) as [A [->|B]]; split; auto; right; [now apply t_step|eapply t_trans; [apply t_step; exact He|exact B]].
Qed.
Theorem C60_query_sound s n q fuel : wf s -> In n (nodes s) ->
  (is_before imp fuel s n q = Some true -> exists r, is_ imp r q = true /\ precedes s n r) /\
  (is_after imp fuel s n q = Some true -> exists r, is_ imp r q = true /\ precedes s r n).
Proof.
  intros W Hn. assert (G : forall s, wf s -> In n (nodes s) -> is_before imp fuel s n q = Some true -> exists r, is_ imp r q = true /\ precedes s n r).
  { clear s W Hn. intros s W Hn. unfold is_before. destruct (is_ imp n q) eqn:En; [discriminate|]. destruct (find_first imp fuel (Succ s) n q) as [[r|]|] eqn:Ef; cbn; try discriminate. intros _.
    assert (Hcl : forall u v, edge s u v -> In v (nodes s)) by (intros u v [Hu Hv]; now apply (wf_succ s W u Hu)).
    destruct (find_sound s q fuel n r Hn Hcl Ef) as [A [E|B]]; [congruence|exists r; auto]. }
  split; [now apply G|]. intros H. destruct (G (flip s) (wf_flip s W) Hn) as (r & A & B); [exact H|]. exists r. split; [exact A|]. exact (proj1 (precedes_flip s n r W) B).
Qed.
End Queries.
Print Assumptions C60_query.
Print Assumptions C60_query_sound.

(** Examples. Nodes 0 and 9 are the schedule and its end. *)
Definition ex_ops : list op := [(1, AtEnd); (2, AtEnd); (3, Before 2); (4, After 1)].
Example C60_example : valid 0 9 [0; 9] ex_ops /\ fold_left (fun l o => place 9 (fst o) (snd o) l) ex_ops [0; 9] = [0; 1; 4; 3; 2; 9] /\
  match do_ops 0 9 (new_schedule empty 0 9) ex_ops with Done s => is_before (fun _ => None) 10 s 4 2 = Some true /\ is_after (fun _ => None) 10 s 4 2 = Some false | _ => False end.
Proof. split; [unfold ex_ops, valid, valid1, place; cbn [fst snd ins_before ins_after Nat.eqb In]; repeat split; try lia; intros H; repeat destruct H as [H|H]; try discriminate; exact H|]. split; vm_compute; auto. Qed.
(** With two parallel phases 1 and 2 after 0: 0 precedes 2, but is_before says no. *)
Example C60_query_branching : exists s, do_ops 0 9 (new_schedule empty 0 9) [(1, AtEnd); (2, With 1)] = Done s /\ precedes s 0 2 /\ is_before (fun _ => None) 10 s 0 2 = Some false.
Proof.
  eexists. split; [reflexivity|]. split; [|reflexivity]. apply t_step. split; vm_compute; auto.
Qed.
Example C60_parallel_example : do_ops 0 9 (new_schedule empty 0 9) [(1, AtEnd); (2, With 1); (3, After 0)] = KeyErr /\ do_ops 0 9 (new_schedule empty 0 9) [(1, AtEnd); (2, With 1); (3, AtEnd)] = KeyErr.
Proof. split; reflexivity. Qed.
