(** Proofs about the domains: what a new part of the phase graph looks like does not depend on the
    rest of the graph. *)
From Coq Require Import List Bool Arith Lia String.
From Verif Require Import Prelude PhaseGraphModel DomModel DomSpec DomProofs.
Import ListNotations.
Local Open Scope nat_scope.
Local Open Scope list_scope.

(** *** A graph s that is s0 with the graph t, whose phases and dictionaries are shifted *)
Definition sh (k : nat) (l : list nat) : list nat := map (Nat.add k) l.
Lemma mem_sh k l x : mem (sh k l) (k + x) = mem l x.
Proof.
  unfold mem, sh. induction l as [|y t IH]; cbn; [reflexivity|]. rewrite IH. f_equal. destruct (Nat.eqb_spec (k + x) (k + y)), (Nat.eqb_spec x y); auto; lia.
Qed.
Lemma dput_sh k l x : dput (sh k l) (k + x) = sh k (dput l x).
Proof. unfold dput. rewrite mem_sh. destruct (mem l x); [reflexivity|]. unfold sh. now rewrite map_app. Qed.
Lemma dremove_sh k l x : dremove (sh k l) (k + x) = sh k (dremove l x).
Proof.
  unfold dremove, sh. induction l as [|y t IH]; cbn; [reflexivity|]. replace (Nat.eqb (k + x) (k + y)) with (Nat.eqb x y) by (destruct (Nat.eqb_spec (k + x) (k + y)), (Nat.eqb_spec x y); auto; lia).
  destruct (Nat.eqb x y); cbn; [exact IH|now rewrite IH].
Qed.
Section Sim.
Context (s0 : pg) (k D : nat).
Record sim (s t : pg) : Prop := Sim {
  sm_old : forall n, n < k -> sdid s n = sdid s0 n /\ pdid s n = pdid s0 n;
  sm_new : forall n, In n (nodes t) -> sdid s (k + n) = D + sdid t n /\ pdid s (k + n) = D + pdid t n;
  sm_dold : forall d, d < D -> dict s d = dict s0 d;
  sm_dnew : forall d, d < nextd t -> dict s (D + d) = sh k (dict t d);
  sm_next : nextd s = D + nextd t;
  sm_ids : forall n, In n (nodes t) -> sdid t n < nextd t /\ pdid t n < nextd t;
  sm_in : forall d, d < nextd t -> incl (dict t d) (nodes t)
}.
Lemma sim_new_node s t n : sim s t -> ~ In n (nodes t) -> sim (new_node s (k + n)) (new_node t n).
Proof.
  intros [A B C E F G H] Hn. constructor; cbn [new_node sdid pdid dict nextd nodes].
  - intros m Hm. rewrite !upd_neq by lia. auto.
  - intros m [<-|Hm]; [rewrite !upd_eq; lia|]. assert (m <> n) by (intros ->; tauto). rewrite !upd_neq by lia. auto.
  - intros d Hd. rewrite !upd_neq by lia. auto.
  - intros d Hd. rewrite F. destruct (Nat.eq_dec d (S (nextd t))) as [->|N1]; [replace (D + S (nextd t)) with (S (D + nextd t)) by lia; now rewrite !upd_eq|].
    rewrite (upd_neq _ (S (D + nextd t)) (D + d)) by lia. rewrite (upd_neq _ (S (nextd t)) d) by lia.
    destruct (Nat.eq_dec d (nextd t)) as [->|N2]; [now rewrite !upd_eq|]. rewrite !upd_neq by lia. apply E. lia.
  - lia.
  - intros m [<-|Hm]; [rewrite !upd_eq; lia|]. assert (m <> n) by (intros ->; tauto). rewrite !upd_neq by lia. destruct (G m Hm). lia.
  - intros d Hd. destruct (Nat.eq_dec d (S (nextd t))) as [->|N1]; [rewrite upd_eq; intros x []|]. rewrite (upd_neq _ (S (nextd t)) d) by lia.
    destruct (Nat.eq_dec d (nextd t)) as [->|N2]; [rewrite upd_eq; intros x []|]. rewrite upd_neq by lia. intros x Hx. right. apply (H d); [lia|exact Hx].
Qed.
Lemma sim_dict s t d l : sim s t -> d < nextd t -> incl l (nodes t) ->
  sim (PG (sdid s) (pdid s) (upd (dict s) (D + d) (sh k l)) (nextd s) (nodes s)) (PG (sdid t) (pdid t) (upd (dict t) d l) (nextd t) (nodes t)).
Proof.
  intros [A B C E F G H] Hd Hl. constructor; cbn [sdid pdid dict nextd nodes]; auto.
  - intros d' Hd'. rewrite upd_neq by lia. auto.
  - intros d' Hd'. destruct (Nat.eq_dec d' d) as [->|N]; [now rewrite !upd_eq|]. rewrite !upd_neq by lia. auto.
  - intros d' Hd'. destruct (Nat.eq_dec d' d) as [->|N]; [now rewrite upd_eq|]. rewrite upd_neq by lia. auto.
Qed.
Lemma sim_put s t d x : sim s t -> d < nextd t -> In x (nodes t) -> sim (put s (D + d) (k + x)) (put t d x).
Proof.
  intros Hs Hd Hx. unfold put. rewrite (sm_dnew s t Hs d Hd), dput_sh. apply sim_dict; auto. intros y Hy. unfold dput in Hy. destruct (mem (dict t d) x); [now apply (sm_in s t Hs d)|].
  apply in_app_or in Hy as [Hy|[<-|[]]]; [now apply (sm_in s t Hs d)|exact Hx].
Qed.
Lemma sim_del s t d x t' : sim s t -> d < nextd t -> del t d x = Some t' -> exists s', del s (D + d) (k + x) = Some s' /\ sim s' t'.
Proof.
  intros Hs Hd. unfold del. rewrite (sm_dnew s t Hs d Hd), mem_sh, dremove_sh. destruct (mem (dict t d) x); [|discriminate]. intros [= <-]. eexists. split; [reflexivity|].
  apply sim_dict; auto. intros y Hy. unfold dremove in Hy. apply filter_In in Hy as [Hy _]. now apply (sm_in s t Hs d).
Qed.
Lemma sim_relink ps : forall s t x b t', sim s t -> incl ps (nodes t) -> In b (nodes t) -> relink_preds t ps x b = Some t' ->
  exists s', relink_preds s (sh k ps) (k + x) (k + b) = Some s' /\ sim s' t' /\ sdid t' = sdid t /\ pdid t' = pdid t /\ nextd t' = nextd t /\ nodes t' = nodes t.
Proof.
  induction ps as [|p l IH]; intros s t x b t' Hs Hps Hb; cbn [relink_preds sh map].
  - intros [= <-]. exists s. split; [reflexivity|]. split; [exact Hs|]. auto.
  - assert (Hp : In p (nodes t)) by (apply Hps; now left). destruct (sm_new s t Hs p Hp) as [E1 _]. destruct (sm_ids s t Hs p Hp) as [E2 _].
    destruct (del t (sdid t p) x) as [t1|] eqn:Ed; [|discriminate]. destruct (sim_del s t (sdid t p) x t1 Hs E2 Ed) as (s1 & F1 & F2). rewrite E1, F1.
    assert (T1 : sdid t1 = sdid t /\ pdid t1 = pdid t /\ nextd t1 = nextd t /\ nodes t1 = nodes t) by (unfold del in Ed; destruct (mem _ _); [injection Ed as <-; auto|discriminate]). destruct T1 as (T1 & T2 & T3 & T4).
    assert (S1 : sdid s1 (k + p) = D + sdid t1 p) by (apply (sm_new s1 t1 F2); now rewrite T4). rewrite S1.
    intros Hr. destruct (IH (put s1 (D + sdid t1 p) (k + b)) (put t1 (sdid t1 p) b) x b t') as (s' & G1 & G2 & G3 & G4 & G5 & G6); auto.
    + apply sim_put; auto; [rewrite T1, T3; exact E2|now rewrite T4].
    + cbn [put nodes]. rewrite T4. intros y Hy. apply Hps. now right.
    + cbn [put nodes]. now rewrite T4.
    + exists s'. cbn [put sdid pdid nextd nodes] in *. split; [exact G1|]. split; [exact G2|]. repeat split; congruence.
Qed.
Lemma sim_before s t b e x t' : sim s t -> In b (nodes t) -> In e (nodes t) -> In x (nodes t) -> add_before t b e x = Some t' ->
  exists s', add_before s (k + b) (k + e) (k + x) = Some s' /\ sim s' t' /\ nodes t' = nodes t.
Proof.
  intros Hs Hb He Hx. unfold add_before.
  assert (Hs1 : sim (PG (sdid s) (upd (pdid s) (k + b) (pdid s (k + x))) (dict s) (nextd s) (nodes s)) (PG (sdid t) (upd (pdid t) b (pdid t x)) (dict t) (nextd t) (nodes t))).
  { destruct Hs as [A B C E F G H]. constructor; cbn [sdid pdid dict nextd nodes]; auto.
    - intros n Hn. rewrite upd_neq by lia. auto.
    - intros n Hn. destruct (Nat.eq_dec n b) as [->|N]; [rewrite !upd_eq; split; [now apply B|now apply B]|]. rewrite !upd_neq by lia. auto.
    - intros n Hn. split; [now apply G|]. destruct (Nat.eq_dec n b) as [->|N]; [rewrite upd_eq; now apply G|]. rewrite upd_neq by lia. now apply G. }
  set (s1 := PG (sdid s) (upd (pdid s) (k + b) (pdid s (k + x))) (dict s) (nextd s) (nodes s)) in *. set (t1 := PG (sdid t) (upd (pdid t) b (pdid t x)) (dict t) (nextd t) (nodes t)) in *.
  assert (Hs2 : sim (put s1 (sdid s1 (k + e)) (k + x)) (put t1 (sdid t1 e) x)).
  { destruct (sm_new s1 t1 Hs1 e He) as [-> _]. apply sim_put; auto. now apply (sm_ids s1 t1 Hs1). }
  set (s2 := put s1 (sdid s1 (k + e)) (k + x)) in *. set (t2 := put t1 (sdid t1 e) x) in *.
  assert (Hp : Pred s2 (k + x) = sh k (Pred t2 x)).
  { unfold Pred. destruct (sm_new s2 t2 Hs2 x Hx) as [_ ->]. apply (sm_dnew s2 t2 Hs2). now apply (sm_ids s2 t2 Hs2). }
  rewrite Hp. destruct (relink_preds t2 (Pred t2 x) x b) as [t3|] eqn:Er; [|discriminate]. intros [= <-].
  destruct (sim_relink (Pred t2 x) s2 t2 x b t3 Hs2) as (s3 & E3 & Hs3 & T1 & T2 & T3 & T4); auto.
  { apply (sm_in s2 t2 Hs2). now apply (sm_ids s2 t2 Hs2). }
  rewrite E3. eexists. split; [reflexivity|]. split; [|exact T4].
  destruct Hs3 as [A B C E F G H]. change (nodes t2) with (nodes t) in T4. constructor; cbn [sdid pdid dict nextd nodes].
  - intros n Hn. rewrite upd_neq by lia. auto.
  - intros n Hn. destruct (B n Hn) as [B1 B2]. split; [exact B1|]. destruct (Nat.eq_dec n x) as [->|N]; [rewrite !upd_eq; lia|]. rewrite !upd_neq by lia. exact B2.
  - intros d Hd. rewrite upd_neq by lia. auto.
  - intros d Hd. rewrite F. destruct (Nat.eq_dec d (nextd t3)) as [->|N]; [now rewrite !upd_eq|]. rewrite !upd_neq by lia. apply E. lia.
  - lia.
  - intros n Hn. destruct (G n Hn). split; [lia|]. destruct (Nat.eq_dec n x) as [->|N]; [rewrite upd_eq; lia|]. rewrite upd_neq by lia. lia.
  - intros d Hd. destruct (Nat.eq_dec d (nextd t3)) as [->|N]; [rewrite upd_eq; intros y [<-|[]]; now rewrite T4|]. rewrite upd_neq by lia. apply H. lia.
Qed.
Lemma sim_start : (forall n, n < k -> sdid s0 n < D /\ pdid s0 n < D) -> nextd s0 = D -> sim s0 (PG (fun _ => 0) (fun _ => 0) (fun _ => []) 0 []).
Proof. intros H E. constructor; cbn; auto; try tauto; try lia. Qed.
Lemma sim_schedule s t b e : sim s t -> ~ In b (nodes t) -> ~ In e (nodes t) -> b <> e -> sim (new_schedule s (k + b) (k + e)) (new_schedule t b e).
Proof.
  intros Hs Hb He Hne. unfold new_schedule. set (s1 := new_node (new_node s (k + b)) (k + e)). set (t1 := new_node (new_node t b) e).
  assert (H1 : sim s1 t1) by (apply sim_new_node; [now apply sim_new_node|cbn; intros [|]; auto]).
  assert (Ib : In b (nodes t1)) by (cbn; auto). assert (Ie : In e (nodes t1)) by (cbn; auto).
  assert (H2 : sim (put s1 (sdid s1 (k + b)) (k + e)) (put t1 (sdid t1 b) e)).
  { destruct (sm_new s1 t1 H1 b Ib) as [-> _]. apply sim_put; auto. now apply (sm_ids s1 t1 H1). }
  cbv zeta. fold s1 t1. destruct (sm_new s1 t1 H1 e Ie) as [_ E]. rewrite E. apply sim_put; auto. now apply (sm_ids s1 t1 H1 e Ie).
Qed.
End Sim.

(** *** The same with the phases *)
Section Simd.
Context (s0 : ds).
Notation k := (cnt s0).
Notation D := (nextd (gr s0)).
Record simd (s t : ds) : Prop := Simd {
  sd_gr : sim (gr s0) k D (gr s) (gr t);
  sd_cnt : cnt s = k + cnt t;
  sd_lt : forall n, In n (nodes (gr t)) <-> n < cnt t;
  sd_old : forall n, n < k -> kd (inf s) n = kd (inf s0) n /\ nm (inf s) n = nm (inf s0) n /\ par (inf s) n = par (inf s0) n /\ im (inf s) n = im (inf s0) n /\ endn s n = endn s0 n;
  sd_new : forall n, n < cnt t -> kd (inf s) (k + n) = kd (inf t) n /\ nm (inf s) (k + n) = nm (inf t) n /\ par (inf s) (k + n) = option_map (Nat.add k) (par (inf t) n) /\ im (inf s) (k + n) = im (inf t) n;
  sd_end : endn s k = k + endn t 0 /\ endn t 0 < cnt t
}.
Lemma simd_sched kk name : (forall n, n < k -> sdid (gr s0) n < D /\ pdid (gr s0) n < D) -> simd (new_sched s0 kk name) (new_sched no_phase kk name).
Proof.
  intros H. unfold new_sched. change (cnt no_phase) with 0. assert (H0 := sim_start (gr s0) k D H eq_refl).
  constructor; cbn [gr inf cnt endn].
  - pose proof (sim_schedule (gr s0) k D (gr s0) (gr no_phase) 0 1 H0) as G. rewrite Nat.add_0_r, Nat.add_1_r in G. apply G; cbn; auto.
  - lia.
  - intros n. cbn. lia.
  - intros n Hn. cbn [info_add kd nm par im]. rewrite !upd_neq by lia. auto.
  - intros n Hn. assert (n = 0 \/ n = 1) as [-> | ->] by lia; cbn [info_add kd nm par im]; rewrite ?Nat.add_0_r, ?Nat.add_1_r, ?upd_eq; auto.
    + rewrite !(upd_neq _ (S k) k), !upd_eq by lia. rewrite !(upd_neq _ 1 0), !upd_eq by lia. auto.
    + repeat split; auto. cbn. now rewrite Nat.add_0_r.
  - rewrite !upd_eq. lia.
Qed.
Lemma simd_imp s t p name t' : simd s t -> 0 < cnt t -> add_imp t 0 p name = Some t' -> exists s', add_imp s k p name = Some s' /\ simd s' t'.
Proof.
  intros [A B C E F [G1 G2]] H0. unfold add_imp, lift, add. rewrite B, G1.
  destruct (add_before (new_node (gr t) (cnt t)) (cnt t) (cnt t) (endn t 0)) as [g|] eqn:Eb; [|discriminate]. intros [= <-].
  assert (Hn : ~ In (cnt t) (nodes (gr t))) by (rewrite C; lia).
  destruct (sim_before (gr s0) k D (new_node (gr s) (k + cnt t)) (new_node (gr t) (cnt t)) (cnt t) (cnt t) (endn t 0) g) as (g' & E1 & E2 & E3).
  - now apply sim_new_node.
  - now left.
  - now left.
  - right. now apply C.
  - exact Eb.
  - rewrite E1. eexists. split; [reflexivity|]. constructor; cbn [gr inf cnt endn].
    + exact E2.
    + lia.
    + intros n. rewrite E3. cbn [new_node nodes In]. rewrite C. lia.
    + intros n Hk. cbn [info_add kd nm par im]. rewrite !upd_neq by lia. now apply E.
    + intros n Hk. cbn [info_add kd nm par im]. destruct (Nat.eq_dec n (cnt t)) as [->|N]; [rewrite !upd_eq; cbn; rewrite Nat.add_0_r; auto|]. rewrite !upd_neq by lia. apply F. lia.
    + split; [exact G1|lia].
Qed.
Lemma simd_imps l : forall s t t', simd s t -> 0 < cnt t -> add_imps t 0 l = Some t' -> exists s', add_imps s k l = Some s' /\ simd s' t'.
Proof.
  induction l as [|[p name] l IH]; intros s t t' H H0; cbn [add_imps]; [intros [= <-]; eauto|].
  destruct (add_imp t 0 p name) as [t1|] eqn:E1; [|discriminate]. destruct (simd_imp s t p name t1 H H0 E1) as (s1 & E2 & H2). rewrite E2. apply IH; auto.
  unfold add_imp, lift in E1. destruct (add _ _ _ _ _ _); try discriminate. injection E1 as <-. cbn. lia.
Qed.
End Simd.

(** The schedule "uvm_sched" on its own *)
Definition block : ds := match add_imps (new_sched no_phase SCHEDULE "uvm_sched") 0 runtime_phases with Some s => s | None => no_phase end.
Lemma block_eq : add_imps (new_sched no_phase SCHEDULE "uvm_sched") 0 runtime_phases = Some block.
Proof. unfold block. destruct (add_imps _ _ _) eqn:E; [reflexivity|]. exfalso. revert E. vm_compute. discriminate. Qed.
Lemma block_sim s : (forall n, n < cnt s -> sdid (gr s) n < nextd (gr s) /\ pdid (gr s) n < nextd (gr s)) ->
  exists s', add_imps (new_sched s SCHEDULE "uvm_sched") (cnt s) runtime_phases = Some s' /\ simd s s' block.
Proof. intros H. apply (simd_imps s runtime_phases _ _ _ (simd_sched s SCHEDULE "uvm_sched" H)); [cbn; lia|exact block_eq]. Qed.

(** *** The schedule goes into the domain d, and this next to the phase "run" (6), between 5 and 7 *)
Lemma dremove_one x : dremove [x] x = [].
Proof. unfold dremove. cbn. now rewrite Nat.eqb_refl. Qed.
Lemma mem_one x : mem [x] x = true.
Proof. unfold mem. cbn. now rewrite Nat.eqb_refl. Qed.
Ltac uu := repeat first [rewrite upd_eq|rewrite upd_neq by auto].
Lemma attach1 g d k : Pred g (S d) = [d] -> Succ g d = [S d] -> Succ g (S k) = [] -> k <> S d ->
  sdid g (S k) <> sdid g d -> sdid g (S k) <> pdid g (S d) -> sdid g d <> nextd g -> sdid g (S k) <> nextd g ->
  exists g2, add_before g k (S k) (S d) = Some g2 /\ sdid g2 = sdid g /\ pdid g2 = upd (upd (pdid g) k (pdid g (S d))) (S d) (nextd g) /\ nextd g2 = S (nextd g) /\
    forall x, dict g2 x = if x =? nextd g then [S k] else if x =? sdid g d then [k] else if x =? sdid g (S k) then [S d] else dict g x.
Proof.
  intros HP HS HK Nk I1 I2 I3 I4. unfold add_before. set (g1 := PG (sdid g) (upd (pdid g) k (pdid g (S d))) (dict g) (nextd g) (nodes g)).
  assert (E1 : put g1 (sdid g1 (S k)) (S d) = PG (sdid g) (upd (pdid g) k (pdid g (S d))) (upd (dict g) (sdid g (S k)) [S d]) (nextd g) (nodes g)).
  { unfold put, g1. cbn [sdid pdid dict nextd nodes]. fold (Succ g (S k)). now rewrite HK. }
  rewrite E1. clear E1 g1.
  assert (E2 : Pred (PG (sdid g) (upd (pdid g) k (pdid g (S d))) (upd (dict g) (sdid g (S k)) [S d]) (nextd g) (nodes g)) (S d) = [d]).
  { unfold Pred. cbn [dict pdid]. rewrite (upd_neq (pdid g)) by auto. rewrite upd_neq by auto. exact HP. }
  rewrite E2. cbn [relink_preds]. unfold del. cbn [sdid pdid dict nextd nodes]. rewrite (upd_neq (dict g)) by auto. fold (Succ g d). rewrite HS, mem_one, dremove_one.
  unfold put. cbn [sdid pdid dict nextd nodes]. rewrite upd_eq. eexists. split; [reflexivity|]. cbn [sdid pdid dict nextd nodes]. repeat split; auto.
  intros x. unfold upd. destruct (Nat.eqb x (nextd g)); [reflexivity|]. destruct (Nat.eqb x (sdid g d)); reflexivity.
Qed.
Lemma attach2 g d : Pred g 6 = [5] -> Succ g 6 = [7] -> d <> 5 -> d <> 6 -> d <> 7 -> d <> 4 -> sdid g 5 <> pdid g 7 ->
  let g3 := add_with g d (S d) 6 in
  sdid g3 = upd (sdid g) (S d) (sdid g 6) /\ pdid g3 = upd (pdid g) d (pdid g 6) /\ nextd g3 = nextd g /\
  forall x, dict g3 x = if x =? sdid g 5 then dput (dict g x) d else if x =? pdid g 7 then dput (dict g x) (S d) else dict g x.
Proof.
  intros HP HS N1 N2 N3 N4 I. unfold add_with. rewrite HP, HS. cbn [fold_left]. unfold put. cbn [sdid pdid dict nextd nodes]. repeat split.
  intros x. rewrite (upd_neq (sdid g)) by lia. rewrite (upd_neq (pdid g)) by lia. rewrite (upd_neq (dict g)) by auto. unfold upd.
  destruct (Nat.eqb_spec x (pdid g 7)) as [->|]; [|destruct (Nat.eqb_spec x (sdid g 5)) as [->|]; reflexivity]. destruct (Nat.eqb_spec (pdid g 7) (sdid g 5)); [congruence|reflexivity].
Qed.

(** *** Which phases share a dictionary *)
Record ids (g : pg) (c : nat) (SS PS : nat -> Prop) : Prop := Ids {
  id_lt : forall n, n < c -> sdid g n < nextd g /\ pdid g n < nextd g;
  id_s : forall n m, n < c -> m < c -> sdid g n = sdid g m -> n = m \/ (SS n /\ SS m);
  id_p : forall n m, n < c -> m < c -> pdid g n = pdid g m -> n = m \/ (PS n /\ PS m);
  id_sp : forall n m, n < c -> m < c -> sdid g n <> pdid g m
}.
Lemma ids_sim g0 k g1 t c SS PS : ids g0 k SS PS -> (forall n, n < c -> In n (nodes t)) -> sim g0 k (nextd g0) g1 t -> ids t c (fun _ => False) (fun _ => False) -> ids g1 (k + c) SS PS.
Proof.
  intros [A1 A2 A3 A4] Hc [B1 B2 B3 B4 B5 B6 B7] [C1 C2 C3 C4].
  assert (V : forall n, n < k + c -> (n < k /\ sdid g1 n = sdid g0 n /\ pdid g1 n = pdid g0 n /\ sdid g0 n < nextd g0 /\ pdid g0 n < nextd g0) \/
     exists j, j < c /\ n = k + j /\ sdid g1 n = nextd g0 + sdid t j /\ pdid g1 n = nextd g0 + pdid t j /\ sdid t j < nextd t /\ pdid t j < nextd t).
  { intros n Hn. destruct (Nat.lt_ge_cases n k) as [H|H]; [left; destruct (B1 n H), (A1 n H); auto|right]. exists (n - k). assert (n = k + (n - k)) as E by lia. assert (Hj : n - k < c) by lia.
    destruct (B2 (n - k) (Hc _ Hj)), (B6 (n - k) (Hc _ Hj)). rewrite <- E in *. auto 10. }
  constructor.
  - intros n Hn. rewrite B5. destruct (V n Hn) as [(H1 & -> & -> & H2 & H3)|(j & H1 & H2 & -> & -> & H3 & H4)]; lia.
  - intros n m Hn Hm. destruct (V n Hn) as [(H1 & -> & _ & H2 & H3)|(j & H1 & H2 & -> & _ & H3 & H4)]; destruct (V m Hm) as [(K1 & -> & _ & K2 & K3)|(j' & K1 & K2 & -> & _ & K3 & K4)]; intros E; try lia.
    + now apply A2.
    + left. destruct (C2 j j') as [?|[[] _]]; lia.
  - intros n m Hn Hm. destruct (V n Hn) as [(H1 & _ & -> & H2 & H3)|(j & H1 & H2 & _ & -> & H3 & H4)]; destruct (V m Hm) as [(K1 & _ & -> & K2 & K3)|(j' & K1 & K2 & _ & -> & K3 & K4)]; intros E; try lia.
    + now apply A3.
    + left. destruct (C3 j j') as [?|[[] _]]; lia.
  - intros n m Hn Hm. destruct (V n Hn) as [(H1 & -> & _ & H2 & H3)|(j & H1 & H2 & -> & _ & H3 & H4)]; destruct (V m Hm) as [(K1 & _ & -> & K2 & K3)|(j' & K1 & K2 & _ & -> & K3 & K4)]; try lia.
    + now apply A4.
    + intros E. apply (C4 j j'); lia.
Qed.
Lemma ids_attach g g3 c (SS PS SS' PS' : nat -> Prop) d k : ids g c SS PS -> S d < c -> k < c -> 6 < d -> S d < k -> SS 6 -> PS 6 -> ~ SS (S d) -> ~ PS d -> ~ PS (S d) -> ~ PS k ->
  (forall n, SS' n <-> SS n \/ n = S d) -> (forall n, PS' n <-> PS n \/ n = d) ->
  sdid g3 = upd (sdid g) (S d) (sdid g 6) -> pdid g3 = upd (upd (upd (pdid g) k (pdid g (S d))) (S d) (nextd g)) d (pdid g 6) -> nextd g3 = S (nextd g) -> ids g3 c SS' PS'.
Proof.
  intros [A1 A2 A3 A4] Hd Hk H6 Hdk S6 P6 NS NP NPS NPk HSS HPP ES EP EN.
  assert (H6c : 6 < c) by lia. destruct (A1 6 H6c) as [L6 L6']. destruct (A1 (S d) Hd) as [LS LS'].
  assert (VS : forall n, n < c -> (n = S d /\ sdid g3 n = sdid g 6) \/ (n <> S d /\ sdid g3 n = sdid g n)).
  { intros n Hn. rewrite ES. destruct (Nat.eq_dec n (S d)) as [->|N]; [left; now rewrite upd_eq|right; now rewrite upd_neq]. }
  assert (VP : forall n, n < c -> (n = d /\ pdid g3 n = pdid g 6) \/ (n = S d /\ pdid g3 n = nextd g) \/ (n = k /\ pdid g3 n = pdid g (S d)) \/ (n <> d /\ n <> S d /\ n <> k /\ pdid g3 n = pdid g n)).
  { intros n Hn. rewrite EP. destruct (Nat.eq_dec n d) as [->|N1]; [left; now rewrite upd_eq|]. rewrite (upd_neq _ d n) by auto. destruct (Nat.eq_dec n (S d)) as [->|N2]; [right; left; now rewrite upd_eq|].
    rewrite (upd_neq _ (S d) n) by auto. destruct (Nat.eq_dec n k) as [->|N3]; [right; right; left; now rewrite upd_eq|]. rewrite upd_neq by auto. auto 10. }
  constructor.
  - intros n Hn. rewrite EN. destruct (A1 n Hn). destruct (VS n Hn) as [[_ ->]|[_ ->]]; destruct (VP n Hn) as [[_ ->]|[[_ ->]|[[_ ->]|(_ & _ & _ & ->)]]]; lia.
  - intros n m Hn Hm. rewrite !HSS. destruct (VS n Hn) as [[N1 ->]|[N1 ->]]; destruct (VS m Hm) as [[M1 ->]|[M1 ->]]; intros E.
    + left. congruence.
    + apply A2 in E as [E|[_ E]]; auto. subst m. right. auto.
    + apply A2 in E as [E|[E _]]; auto. subst n. right. auto.
    + apply A2 in E as [E|[E1 E2]]; auto.
  - intros n m Hn Hm. rewrite !HPP. destruct (A1 n Hn) as [_ Ln], (A1 m Hm) as [_ Lm].
    destruct (VP n Hn) as [[N ->]|[[N ->]|[[N ->]|(N1 & N2 & N3 & ->)]]]; destruct (VP m Hm) as [[M ->]|[[M ->]|[[M ->]|(M1 & M2 & M3 & ->)]]]; intros E; try lia.
    + apply A3 in E as [E|[_ E]]; try lia. tauto.
    + apply A3 in E as [E|[_ E]]; auto. subst m. auto.
    + apply A3 in E as [E|[E _]]; try lia. tauto.
    + apply A3 in E as [E|[E _]]; try lia. tauto.
    + apply A3 in E as [E|[E _]]; auto. subst n. auto.
    + apply A3 in E as [E|[_ E]]; try lia. tauto.
    + apply A3 in E as [E|[E1 E2]]; auto.
  - intros n m Hn Hm. destruct (A1 n Hn) as [Ln _]. destruct (VS n Hn) as [[N ->]|[N ->]]; destruct (VP m Hm) as [[M ->]|[[M ->]|[[M ->]|(M1 & M2 & M3 & ->)]]]; try (apply A4; auto; lia); lia.
Qed.
Definition idsb (g : pg) (c : nat) : bool :=
  forallb (fun n => (sdid g n <? nextd g) && (pdid g n <? nextd g) &&
    forallb (fun m => (negb (sdid g n =? sdid g m) || (n =? m)) && (negb (pdid g n =? pdid g m) || (n =? m)) && negb (sdid g n =? pdid g m)) (seq 0 c)) (seq 0 c).
Lemma idsb_ok g c : idsb g c = true -> ids g c (fun _ => False) (fun _ => False).
Proof.
  unfold idsb. rewrite forallb_forall. intros H.
  assert (H1 : forall n, n < c -> sdid g n < nextd g /\ pdid g n < nextd g).
  { intros n Hn. specialize (H n ltac:(apply in_seq; lia)). rewrite !andb_true_iff in H. destruct H as [[H1 H2] _]. apply Nat.ltb_lt in H1, H2. auto. }
  assert (H2 : forall n m, n < c -> m < c -> (sdid g n = sdid g m -> n = m) /\ (pdid g n = pdid g m -> n = m) /\ sdid g n <> pdid g m).
  { intros n m Hn Hm. specialize (H n ltac:(apply in_seq; lia)). rewrite andb_true_iff in H. destruct H as [_ H]. rewrite forallb_forall in H. specialize (H m ltac:(apply in_seq; lia)). rewrite !andb_true_iff in H. destruct H as [[A B] C].
    split; [|split].
    - intros E. apply orb_true_iff in A as [A|A]; [rewrite E, Nat.eqb_refl in A; discriminate|now apply Nat.eqb_eq].
    - intros E. apply orb_true_iff in B as [B|B]; [rewrite E, Nat.eqb_refl in B; discriminate|now apply Nat.eqb_eq].
    - intros E. rewrite E, Nat.eqb_refl in C. discriminate. }
  constructor; [exact H1| | |].
  - intros n m Hn Hm E. left. destruct (H2 n m Hn Hm) as (A & _ & _). exact (A E).
  - intros n m Hn Hm E. left. destruct (H2 n m Hn Hm) as (_ & A & _). exact (A E).
  - intros n m Hn Hm. destruct (H2 n m Hn Hm) as (_ & _ & A). exact A.
Qed.
Lemma block_ids : ids (gr block) 14 (fun _ => False) (fun _ => False).
Proof. apply idsb_ok. vm_compute. reflexivity. Qed.

(** *** The phases of all domains. [att]: the domains that have a schedule, with this schedule *)
Definition c_succ : list (list nat) := [[2]; []; [3]; [4]; [5]; [6]; [7]; [8]; [9]; [10]; [1]].
Definition c_pred : list (list nat) := [[]; [10]; [0]; [2]; [3]; [4]; [5]; [6]; [7]; [8]; [9]].
Definition c_nm : list string := ["common"; "common end"; "build"; "connect"; "end_of_elaboration"; "start_of_simulation"; "run"; "extract"; "check"; "report"; "final"]%string.
Definition SSet (att : list (nat * nat)) (n : nat) : Prop := n = 6 \/ exists a, In a att /\ n = S (fst a).
Definition PSet (att : list (nat * nat)) (n : nat) : Prop := n = 6 \/ exists a, In a att /\ n = fst a.
Record Inv (s : ds) (att : list (nat * nat)) : Prop := INV {
  v_cnt : 10 < cnt s;
  v_ids : ids (gr s) (cnt s) (SSet att) (PSet att);
  v_com : forall n, n <= 10 ->
    Succ (gr s) n = (if n =? 5 then 6 :: map fst att else nth n c_succ []) /\
    Pred (gr s) n = (if n =? 7 then 6 :: map (fun a => S (fst a)) att else nth n c_pred []) /\
    kd (inf s) n = (if n =? 0 then DOMAIN else if n =? 1 then TERMINAL else NODE) /\ nm (inf s) n = nth n c_nm ""%string /\
    par (inf s) n = (if n =? 0 then None else Some 0) /\ im (inf s) n = (if 2 <=? n then Some (n - 2) else None);
  v_end0 : endn s 0 = 1;
  v_dom : forall d, 10 < d -> d < cnt s -> kd (inf s) d = DOMAIN ->
    endn s d = S d /\ S d < cnt s /\ kd (inf s) (S d) = TERMINAL /\ nm (inf s) d <> "uvm_sched"%string /\ nm (inf s) (S d) = String.append (nm (inf s) d) " end" /\
    par (inf s) (S d) = Some d /\ im (inf s) d = None /\ im (inf s) (S d) = None;
  v_free : forall d, 10 < d -> d < cnt s -> kd (inf s) d = DOMAIN -> ~ In d (map fst att) ->
    Succ (gr s) d = [S d] /\ Pred (gr s) d = [] /\ Succ (gr s) (S d) = [] /\ Pred (gr s) (S d) = [d];
  v_att : forall d k, In (d, k) att -> 10 < d /\ d < cnt s /\ kd (inf s) d = DOMAIN /\ S d < k /\ k + 14 <= cnt s /\
    Pred (gr s) d = [5] /\ Succ (gr s) d = [k] /\ Pred (gr s) (S d) = [S k] /\ Succ (gr s) (S d) = [7];
  v_blk : forall d k, In (d, k) att -> forall j, j < 14 ->
    Succ (gr s) (k + j) = (if j =? 1 then [S d] else sh k (Succ (gr block) j)) /\ Pred (gr s) (k + j) = (if j =? 0 then [d] else sh k (Pred (gr block) j)) /\
    kd (inf s) (k + j) = kd (inf block) j /\ nm (inf s) (k + j) = nm (inf block) j /\ im (inf s) (k + j) = im (inf block) j /\
    par (inf s) (k + j) = (if j =? 0 then Some d else option_map (Nat.add k) (par (inf block) j));
  v_lay : forall n, n < cnt s -> n <= 10 \/ (10 < n /\ kd (inf s) n = DOMAIN) \/ (exists d, 10 < d /\ n = S d /\ kd (inf s) d = DOMAIN) \/ exists d k j, In (d, k) att /\ j < 14 /\ n = k + j;
  v_nd : NoDup (map fst att)
}.
(** The graph after a part was added on its own: nothing changes for the phases that were there. *)
Lemma sim_view g0 k g1 t : (forall n, n < k -> sdid g0 n < nextd g0 /\ pdid g0 n < nextd g0) -> sim g0 k (nextd g0) g1 t ->
  (forall n, n < k -> Succ g1 n = Succ g0 n /\ Pred g1 n = Pred g0 n) /\ (forall n, In n (nodes t) -> Succ g1 (k + n) = sh k (Succ t n) /\ Pred g1 (k + n) = sh k (Pred t n)).
Proof.
  intros H [A B C E F G I]. split; intros n Hn; unfold Succ, Pred.
  - destruct (A n Hn) as [-> ->], (H n Hn). now rewrite !C.
  - destruct (B n Hn) as [-> ->], (G n Hn). now rewrite !E.
Qed.
Lemma new_domain_inv s att name : Inv s att -> name <> "uvm_sched"%string -> Inv (new_sched s DOMAIN name) att.
Proof.
  intros V Hn. pose proof (simd_sched s DOMAIN name (id_lt _ _ _ _ (v_ids _ _ V))) as [A B C E F [G1 G2]].
  destruct (sim_view _ _ _ _ (id_lt _ _ _ _ (v_ids _ _ V)) A) as [Vo Vn]. set (s' := new_sched s DOMAIN name) in *. set (t := new_sched no_phase DOMAIN name) in *.
  assert (Ct : cnt t = 2) by reflexivity. assert (C0 := v_cnt _ _ V). rewrite Ct in *.
  assert (I0 : In 0 (nodes (gr t))) by (apply C; lia). assert (I1 : In 1 (nodes (gr t))) by (apply C; lia).
  destruct (Vn 0 I0) as [S0 P0]. destruct (Vn 1 I1) as [S1 P1]. destruct (F 0) as (K0 & N0 & R0 & M0); [lia|]. destruct (F 1) as (K1 & N1 & R1 & M1); [lia|].
  rewrite Nat.add_0_r, ?Nat.add_1_r in *. change (kd (inf t) 0) with DOMAIN in K0. change (nm (inf t) 0) with name in N0. change (im (inf t) 0) with (@None nat) in M0.
  change (kd (inf t) 1) with TERMINAL in K1. change (nm (inf t) 1) with (String.append name " end") in N1. change (option_map (Nat.add (cnt s)) (par (inf t) 1)) with (Some (cnt s + 0)) in R1. change (im (inf t) 1) with (@None nat) in M1. rewrite Nat.add_0_r in R1.
  assert (S0' : Succ (gr s') (cnt s) = [S (cnt s)]) by (rewrite S0; vm_compute Succ; cbn; now rewrite Nat.add_1_r).
  assert (P0' : Pred (gr s') (cnt s) = []) by (rewrite P0; reflexivity).
  assert (S1' : Succ (gr s') (S (cnt s)) = []) by (rewrite S1; reflexivity).
  assert (P1' : Pred (gr s') (S (cnt s)) = [cnt s]) by (rewrite P1; vm_compute Pred; cbn; now rewrite Nat.add_0_r).
  assert (Hold : forall d k, In (d, k) att -> S d < k /\ k + 14 <= cnt s) by (intros d k H; destruct (v_att _ _ V d k H) as (? & ? & ? & ? & ? & _); auto).
  assert (En : endn s' (cnt s) = S (cnt s)) by (rewrite G1; reflexivity). clear G1.
  constructor.
  - lia.
  - rewrite B. refine (ids_sim (gr s) (cnt s) (gr s') (gr t) 2 _ _ (v_ids _ _ V) _ A _); [intros n H; apply C; exact H|]. apply idsb_ok. vm_compute. reflexivity.
  - intros n H. destruct (Vo n) as [-> ->]; [lia|]. destruct (E n) as (-> & -> & -> & -> & _); [lia|]. now apply (v_com _ _ V).
  - destruct (E 0) as (_ & _ & _ & _ & ->); [lia|]. apply (v_end0 _ _ V).
  - intros d H1 H2 H3. assert (Hd : d < cnt s \/ d = cnt s \/ d = S (cnt s)) by lia. destruct Hd as [Hd|[-> | ->]]; [| |rewrite K1 in H3; discriminate].
    + destruct (E d Hd) as (Ek & Enm & _ & Ei & Ee). rewrite Ek in H3. destruct (v_dom _ _ V d H1 Hd H3) as (D1 & D2 & D3 & D4 & D5 & D6 & D7 & D8).
      destruct (E (S d) D2) as (Ek' & Enm' & Ep' & Ei' & _). rewrite Enm, Ei, Ee, Ek', Enm', Ep', Ei', B. repeat split; auto; lia.
    + rewrite En, K1, N0, N1, R1, M0, M1, B. repeat split; auto. lia.
  - intros d H1 H2 H3 H4. assert (Hd : d < cnt s \/ d = cnt s \/ d = S (cnt s)) by lia. destruct Hd as [Hd|[-> | ->]]; [|rewrite S0', P0', S1', P1'; auto|rewrite K1 in H3; discriminate].
    destruct (E d Hd) as (Ek & _). rewrite Ek in H3. destruct (v_dom _ _ V d H1 Hd H3) as (_ & D2 & _). destruct (Vo d Hd) as [-> ->]. destruct (Vo (S d) D2) as [-> ->]. now apply (v_free _ _ V).
  - intros d k H. destruct (v_att _ _ V d k H) as (H1 & H2 & H3 & H4 & H5 & H6). destruct (E d H2) as (-> & _). destruct (Vo d H2) as [-> ->]. destruct (Vo (S d)) as [-> ->]; [lia|]. rewrite B. repeat split; try tauto; lia.
  - intros d k H j Hj. destruct (Hold d k H). destruct (Vo (k + j)) as [-> ->]; [lia|]. destruct (E (k + j)) as (-> & -> & -> & -> & _); [lia|]. now apply (v_blk _ _ V).
  - intros n H. assert (Hd : n < cnt s \/ n = cnt s \/ n = S (cnt s)) by lia. destruct Hd as [Hd|[-> | ->]].
    + destruct (E n Hd) as (-> & _). destruct (v_lay _ _ V n Hd) as [L|[L|[(d & L1 & L2 & L3)|L]]]; auto 6. right. right. left. exists d. destruct (E d) as (-> & _); [lia|]. auto.
    + right. left. split; [lia|exact K0].
    + right. right. left. exists (cnt s). split; [lia|]. split; [reflexivity|exact K0].
  - apply (v_nd _ _ V).
Qed.

(** *** The searches of define_domain *)
Lemma fn_here i f stay o nbr name n : nm i n = name -> m_find_name i (S f) stay o nbr name n = Some (Some n).
Proof. intros E. cbn [m_find_name]. now rewrite E, String.eqb_refl. Qed.
Lemma fn_nil i f stay o nbr name n : nm i n <> name -> nbr n = [] -> m_find_name i (S f) stay o nbr name n = Some None.
Proof. intros E H. cbn [m_find_name]. apply String.eqb_neq in E. now rewrite E, H. Qed.
Lemma fn_one i f stay o nbr name n m : nm i n <> name -> nbr n = [m] -> in_scope i (S f) stay o m = Some true -> m_find_name i (S f) stay o nbr name n = m_find_name i f stay o nbr name m.
Proof. intros E H Hs. cbn [m_find_name]. apply String.eqb_neq in E. rewrite E, H, Hs. now destruct (m_find_name i f stay o nbr name m) as [[r|]|]. Qed.
Lemma f_here i f stay o nbr q n : matches i q n = true -> m_find i (S f) stay o nbr q n = Some (Some n).
Proof. intros E. cbn [m_find]. now rewrite E. Qed.
Lemma f_nil i f stay o nbr q n : matches i q n = false -> nbr n = [] -> m_find i (S f) stay o nbr q n = Some None.
Proof. intros E H. cbn [m_find]. now rewrite E, H. Qed.
Lemma f_one i f stay o nbr q n m l : matches i q n = false -> nbr n = m :: l -> in_scope i (S f) stay o m = Some true -> m_find i (S f) stay o nbr q n = m_find i f stay o nbr q m.
Proof. intros E H Hs. cbn [m_find first_in]. now rewrite E, H; cbn [first_in]; rewrite Hs. Qed.
Lemma scope_none i fuel stay o m : get_schedule i fuel false o = Some None -> get_schedule i fuel false m = Some None -> in_scope i fuel stay o m = Some true.
Proof. intros H1 H2. unfold in_scope. destruct stay; [|reflexivity]. cbn [negb]. now rewrite H1, H2. Qed.
Lemma sched_domain i fuel d : kd i d = DOMAIN -> get_schedule i fuel false d = Some None.
Proof. intros H. unfold get_schedule. now rewrite H. Qed.
Lemma sched_term i fuel d : kd i d = TERMINAL -> get_schedule i fuel false d = Some None.
Proof. intros H. unfold get_schedule. now rewrite H. Qed.
Lemma end_name x : String.append x " end" <> "uvm_sched"%string.
Proof.
  do 10 (destruct x as [|? x]; [discriminate|]). discriminate.
Qed.
(** The facts about the phases of "common" that the searches use *)
Record com (i : info) (g : pg) (att : list nat) : Prop := Com {
  cm : forall n, n <= 10 ->
    Succ g n = (if n =? 5 then 6 :: att else nth n c_succ []) /\
    (n <> 7 -> Pred g n = nth n c_pred []) /\
    kd i n = (if n =? 0 then DOMAIN else if n =? 1 then TERMINAL else NODE) /\ nm i n = nth n c_nm ""%string /\
    par i n = (if n =? 0 then None else Some 0) /\ im i n = (if 2 <=? n then Some (n - 2) else None) }.
Section Com.
Context (i : info) (g : pg) (att : list nat) (H : com i g att).
Lemma com_sched n fuel : n <= 10 -> get_schedule i fuel false n = Some None.
Proof.
  intros Hn. destruct (cm _ _ _ H n Hn) as (_ & _ & K & _ & P & _). unfold get_schedule. rewrite K. destruct (n =? 0) eqn:E0; [reflexivity|]. destruct (n =? 1); [reflexivity|].
  rewrite P. destruct (cm _ _ _ H 0) as (_ & _ & K0 & _); [lia|]. now rewrite (proj2 (isk_eq i DOMAIN 0) K0).
Qed.
Lemma com_scope stay o n fuel : n <= 10 -> get_schedule i fuel false o = Some None -> in_scope i fuel stay o n = Some true.
Proof. intros Hn Ho. apply scope_none; [exact Ho|now apply com_sched]. Qed.
Ltac c n := let A := fresh in destruct (cm _ _ _ H n) as (? & ? & ? & A & ? & ?); [lia|]; cbn in A.
(** Backwards from "start_of_simulation" *)
Lemma com_back o f name : get_schedule i 0 false o = Some None -> ~ In name ["start_of_simulation"; "end_of_elaboration"; "connect"; "build"; "common"]%string ->
  m_find_name i (5 + f) true o (Pred g) name 5 = Some None.
Proof.
  intros Ho Hn. assert (Ho' : forall fuel, get_schedule i fuel false o = Some None) by (intros fuel; exact Ho).
  assert (N : forall n, n <= 10 -> nm i n = nth n c_nm ""%string) by (intros n Hn'; now apply (cm _ _ _ H n)).
  assert (P : forall n, n <= 10 -> n <> 7 -> Pred g n = nth n c_pred []) by (intros n Hn' ?; now apply (cm _ _ _ H n)).
  cbn [Nat.add]. cbn [In] in Hn.
  rewrite (fn_one i _ true o (Pred g) name 5 4); [|rewrite N by lia; cbn; intros E; apply Hn; auto|rewrite P by lia; reflexivity|apply com_scope; auto; lia].
  rewrite (fn_one i _ true o (Pred g) name 4 3); [|rewrite N by lia; cbn; intros E; apply Hn; auto|rewrite P by lia; reflexivity|apply com_scope; auto; lia].
  rewrite (fn_one i _ true o (Pred g) name 3 2); [|rewrite N by lia; cbn; intros E; apply Hn; auto 6|rewrite P by lia; reflexivity|apply com_scope; auto; lia].
  rewrite (fn_one i _ true o (Pred g) name 2 0); [|rewrite N by lia; cbn; intros E; apply Hn; auto 6|rewrite P by lia; reflexivity|apply com_scope; auto; lia].
  apply fn_nil; [rewrite N by lia; cbn; intros E; apply Hn; auto 7|rewrite P by lia; reflexivity].
Qed.
Lemma com_matches_node d n : d <> n -> matches i (QNode d) n = false.
Proof. intros E. cbn. now apply Nat.eqb_neq. Qed.
(** A phase that is not in the common domain is not found from "common" *)
Lemma com_find_node f d : 10 < d -> find i (11 + f) false (Succ g) (Pred g) (QNode d) 0 = Some FNone.
Proof.
  intros Hd. assert (M : forall n, n <= 10 -> matches i (QNode d) n = false) by (intros n Hn; apply com_matches_node; lia).
  assert (Su : forall n, n <= 10 -> Succ g n = if n =? 5 then 6 :: att else nth n c_succ []) by (intros n Hn'; now apply (cm _ _ _ H n)).
  unfold find. rewrite M by lia. cbn [Nat.add]. rewrite (f_nil i _ false 0 (Pred g)); [|apply M; lia|destruct (cm _ _ _ H 0) as (_ & P & _); [lia|]; rewrite P by lia; reflexivity].
  assert (Step : forall n m l f, n <= 10 -> Succ g n = m :: l -> m_find i (S f) false 0 (Succ g) (QNode d) n = m_find i f false 0 (Succ g) (QNode d) m).
  { intros n m l f' Hn E. apply (f_one i f' false 0 (Succ g) (QNode d) n m l); auto. }
  rewrite (Step 0 2 []) by (lia || (rewrite Su by lia; reflexivity)). rewrite (Step 2 3 []) by (lia || (rewrite Su by lia; reflexivity)). rewrite (Step 3 4 []) by (lia || (rewrite Su by lia; reflexivity)).
  rewrite (Step 4 5 []) by (lia || (rewrite Su by lia; reflexivity)). rewrite (Step 5 6 att) by (lia || (rewrite Su by lia; reflexivity)). rewrite (Step 6 7 []) by (lia || (rewrite Su by lia; reflexivity)).
  rewrite (Step 7 8 []) by (lia || (rewrite Su by lia; reflexivity)). rewrite (Step 8 9 []) by (lia || (rewrite Su by lia; reflexivity)). rewrite (Step 9 10 []) by (lia || (rewrite Su by lia; reflexivity)).
  rewrite (Step 10 1 []) by (lia || (rewrite Su by lia; reflexivity)). rewrite (f_nil i _ false 0 (Succ g)); [reflexivity|apply M; lia|rewrite Su by lia; reflexivity].
Qed.
(** The phase "run" is found from "common" *)
Lemma com_find_run f : find i (6 + f) true (Succ g) (Pred g) (QImp RUN) 0 = Some (FNode 6).
Proof.
  assert (M : forall n, n <= 10 -> matches i (QImp RUN) n = (n =? 6)).
  { intros n Hn. cbn [matches]. destruct (cm _ _ _ H n Hn) as (_ & _ & _ & _ & _ & I). rewrite I. unfold RUN. do 11 (destruct n as [|n]; [reflexivity|]). lia. }
  assert (Su : forall n, n <= 10 -> Succ g n = if n =? 5 then 6 :: att else nth n c_succ []) by (intros n Hn'; now apply (cm _ _ _ H n)).
  assert (S0 : forall fuel, get_schedule i fuel false 0 = Some None) by (intros fuel; apply com_sched; lia).
  unfold find. rewrite M by lia. cbn [Nat.eqb Nat.add]. rewrite (f_nil i _ true 0 (Pred g)); [|rewrite M by lia; reflexivity|destruct (cm _ _ _ H 0) as (_ & P & _); [lia|]; rewrite P by lia; reflexivity].
  assert (Step : forall n m l f, n <= 5 -> m <= 10 -> Succ g n = m :: l -> m_find i (S f) true 0 (Succ g) (QImp RUN) n = m_find i f true 0 (Succ g) (QImp RUN) m).
  { intros n m l f' Hn Hm E. apply (f_one i f' true 0 (Succ g) (QImp RUN) n m l); auto; [rewrite M by lia; apply Nat.eqb_neq; lia|apply com_scope; auto]. }
  rewrite (Step 0 2 []) by (lia || (rewrite Su by lia; reflexivity)). rewrite (Step 2 3 []) by (lia || (rewrite Su by lia; reflexivity)). rewrite (Step 3 4 []) by (lia || (rewrite Su by lia; reflexivity)).
  rewrite (Step 4 5 []) by (lia || (rewrite Su by lia; reflexivity)). rewrite (Step 5 6 att) by (lia || (rewrite Su by lia; reflexivity)).
  rewrite f_here; [reflexivity|]. rewrite M by lia. reflexivity.
Qed.
End Com.

Lemma inv_com s att : Inv s att -> com (inf s) (gr s) (map fst att).
Proof. intros V. constructor. intros n Hn. destruct (v_com _ _ V n Hn) as (A & B & C). rewrite A, B. split; [reflexivity|]. split; [|exact C]. intros H. now apply Nat.eqb_neq in H as ->. Qed.
Lemma sched_not : ~ In "uvm_sched"%string ["start_of_simulation"; "end_of_elaboration"; "connect"; "build"; "common"]%string.
Proof. cbn. intuition discriminate. Qed.
Lemma block_at : kd (inf block) 0 = SCHEDULE /\ nm (inf block) 0 = "uvm_sched"%string /\ par (inf block) 1 = Some 0.
Proof. vm_compute. auto. Qed.
Lemma block_term j : j < 14 -> kd (inf block) j = TERMINAL -> j = 1.
Proof. intros H. destruct j as [|[|j]]; [vm_compute; discriminate|reflexivity|]. do 12 (destruct j as [|j]; [vm_compute; discriminate|]). lia. Qed.
(** A domain that has its schedule *)
Lemma set_again s att d k f : Inv s att -> In (d, k) att -> define_domain (30 + f) s d = Some s.
Proof.
  intros V H. destruct (v_att _ _ V d k H) as (H1 & H2 & H3 & H4 & H5 & H6 & H7 & H8 & H9). destruct (v_dom _ _ V d H1 H2 H3) as (_ & _ & _ & Hn & _).
  destruct (v_blk _ _ V d k H 0) as (_ & _ & K0 & N0 & _ & P0); [lia|]. rewrite Nat.add_0_r in *. rewrite (proj1 block_at) in K0. rewrite (proj1 (proj2 block_at)) in N0. change (0 =? 0) with true in P0.
  unfold define_domain, d_find_by_name, find_by_name. rewrite (proj2 (String.eqb_neq _ _) Hn).
  assert (Hs : forall fuel, get_schedule (inf s) fuel false d = Some None) by (intros; now apply sched_domain).
  change (30 + f) with (S (5 + (24 + f))). rewrite (fn_one (inf s) _ true d (Pred (gr s)) "uvm_sched" d 5 Hn H6) by (apply (com_scope _ _ _ (inv_com s att V)); auto; lia).
  rewrite (com_back _ _ _ (inv_com s att V)); [|apply Hs|exact sched_not].
  rewrite (fn_one (inf s) _ true d (Succ (gr s)) "uvm_sched" d k Hn H7).
  - cbn [Nat.add]. rewrite fn_here; [reflexivity|exact N0].
  - unfold in_scope. cbn [negb]. rewrite Hs. unfold get_schedule at 1. rewrite K0. cbn [oeqb]. cbn [Nat.add get_domain]. rewrite (proj2 (isk_neq (inf s) DOMAIN k)) by congruence. rewrite P0. rewrite (proj2 (isk_eq (inf s) DOMAIN d) H3). cbn [oeqb]. now rewrite Nat.eqb_refl.
Qed.
Lemma dput_new l x : ~ In x l -> dput l x = l ++ [x].
Proof.
  intros H. unfold dput, mem. destruct (existsb (Nat.eqb x) l) eqn:E; [|reflexivity]. apply existsb_exists in E as (y & Hy & Ey). apply Nat.eqb_eq in Ey. now subst.
Qed.
Lemma block_facts : cnt block = 14 /\ Succ (gr block) 1 = [] /\ Pred (gr block) 0 = [] /\ endn block 0 = 1.
Proof. vm_compute. auto. Qed.
Lemma block_kd j : j < 14 -> kd (inf block) j <> DOMAIN.
Proof. intros H. do 14 (destruct j as [|j]; [vm_compute; discriminate|]). lia. Qed.
Opaque block.
(** A domain that has no schedule yet *)
Lemma set_first s att d f : Inv s att -> 10 < d -> d < cnt s -> kd (inf s) d = DOMAIN -> ~ In d (map fst att) ->
  exists s', define_domain (30 + f) s d = Some s' /\ Inv s' (att ++ [(d, cnt s)]) /\ cnt s' = cnt s + 14 /\ (forall n, n < cnt s -> kd (inf s') n = kd (inf s) n).
Proof.
  intros V H1 H2 H3 H4. destruct (v_dom _ _ V d H1 H2 H3) as (De & D2 & D3 & D4 & D5 & D6 & D7 & D8). destruct (v_free _ _ V d H1 H2 H3 H4) as (F1 & F2 & F3 & F4).
  set (k := cnt s) in *. destruct block_facts as (BC & BS1 & BP0 & BE).
  (* nothing is found *)
  assert (Nf : d_find_by_name (30 + f) s true "uvm_sched" d = Some None).
  { unfold d_find_by_name, find_by_name. rewrite (proj2 (String.eqb_neq _ _) D4). change (30 + f) with (S (S (28 + f))). rewrite fn_nil by auto.
    rewrite (fn_one (inf s) _ true d (Succ (gr s)) "uvm_sched" d (S d) D4 F1); [|apply scope_none; [now apply sched_domain|now apply sched_term]]. apply fn_nil; [rewrite D5; apply end_name|exact F3]. }
  unfold define_domain. rewrite Nf. unfold add_uvm_sched. fold k.
  destruct (block_sim s (id_lt _ _ _ _ (v_ids _ _ V))) as (s1 & E1 & [A B C E F [G1 G2]]). fold k in E1, A, B, E, F, G1. rewrite BC in *. rewrite BE in G1. rewrite E1. clear E1.
  destruct (sim_view _ _ _ _ (id_lt _ _ _ _ (v_ids _ _ V)) A) as [Vo Vn]. fold k in Vo, Vn.
  assert (Vn' : forall j, j < 14 -> Succ (gr s1) (k + j) = sh k (Succ (gr block) j) /\ Pred (gr s1) (k + j) = sh k (Pred (gr block) j)) by (intros j Hj; exact (Vn j (proj2 (C j) Hj))). clear Vn.
  assert (I1 : ids (gr s1) (k + 14) (SSet att) (PSet att)) by (apply (ids_sim (gr s) k (gr s1) (gr block) 14 _ _ (v_ids _ _ V)); [exact (fun n Hn => proj2 (C n) Hn)|exact A|exact block_ids]).
  assert (Catt : forall a b, In (a, b) att -> 10 < a /\ S a < k /\ kd (inf s) a = DOMAIN /\ S a < b /\ b + 14 <= k /\ kd (inf s) (S a) = TERMINAL).
  { intros a b Ha. destruct (v_att _ _ V a b Ha) as (X1 & X2 & X3 & X4 & X5 & _). destruct (v_dom _ _ V a X1 X2 X3) as (_ & Y2 & Y3 & _). unfold k. repeat split; auto; lia. }
  assert (NS : forall n, SSet att n -> n = 6 \/ (n < k /\ kd (inf s) n = TERMINAL)) by (intros n [->|([a b] & Ha & ->)]; [now left|right; destruct (Catt a b Ha) as (_ & ? & _ & _ & _ & ?); auto]).
  assert (NP : forall n, PSet att n -> n = 6 \/ (n < k /\ kd (inf s) n = DOMAIN /\ In n (map fst att))).
  { intros n [->|([a b] & Ha & ->)]; [now left|right]. destruct (Catt a b Ha) as (_ & ? & ? & _). cbn [fst]. split; [lia|]. split; [assumption|]. apply in_map_iff. exists (a, b). auto. }
  assert (Kd5 : forall n, 2 <= n -> n <= 10 -> kd (inf s) n = NODE).
  { intros n X1 X2. destruct (v_com _ _ V n X2) as (_ & _ & -> & _). destruct (Nat.eqb_spec n 0); [lia|]. destruct (Nat.eqb_spec n 1); [lia|reflexivity]. }
  assert (NS5 : ~ SSet att 5) by (intros X; apply NS in X as [X|[_ X]]; [discriminate|rewrite Kd5 in X by lia; discriminate]).
  assert (NSd : ~ SSet att d) by (intros X; apply NS in X as [X|[_ X]]; [lia|congruence]).
  assert (NSSd : ~ SSet att (S d)). { intros [X|([a b] & Ha & X)]; [lia|]. cbn [fst] in X. injection X as <-. apply H4, in_map_iff. exists (d, b). auto. }
  assert (NSk : forall j, ~ SSet att (k + j)) by (intros j X; apply NS in X as [X|[X _]]; unfold k in *; lia).
  assert (NPd : ~ PSet att d) by (intros X; apply NP in X as [X|(_ & _ & X)]; [lia|tauto]).
  assert (NPSd : ~ PSet att (S d)) by (intros X; apply NP in X as [X|(_ & X & _)]; [lia|congruence]).
  assert (NPk : forall j, ~ PSet att (k + j)) by (intros j X; apply NP in X as [X|[X _]]; unfold k in *; lia).
  assert (NP7 : ~ PSet att 7) by (intros X; apply NP in X as [X|(_ & X & _)]; [discriminate|rewrite Kd5 in X by lia; discriminate]).
  pose proof I1 as [IL IS IP ISP].
  assert (C0 : 10 < k) by apply (v_cnt _ _ V).
  assert (Sk : k + 1 = S k) by lia.
  (* the schedule goes into the domain *)
  destruct (Vo d H2) as [Sd Pd]. destruct (Vo (S d) D2) as [SSd PSd]. destruct (Vn' 1 ltac:(lia)) as [Sk1 _]. rewrite BS1, Sk in Sk1.
  destruct (IL d ltac:(lia)) as [Ld _]. destruct (IL (S k) ltac:(lia)) as [Lk _].
  destruct (attach1 (gr s1) d k) as (g2 & E2 & Q1 & Q2 & Q3 & Q4); auto; try congruence; try lia.
  { intros X. apply IS in X as [X|[_ X]]; try lia. tauto. }
  { apply ISP; lia. }
  unfold add_part. destruct (E d H2) as (_ & _ & _ & _ & Ed). rewrite Ed, De, G1. unfold lift, add. rewrite Sk, E2. cbn [gr inf cnt endn].
  set (i2 := set_par (inf s1) k d). set (s2 := DS g2 i2 (cnt s1) (endn s1)).
  (* the graph in between *)
  assert (U2 : forall n, n < k -> n <> d -> Succ g2 n = Succ (gr s) n).
  { intros n X1 X2. unfold Succ at 1. rewrite Q1, Q4. destruct (Nat.eqb_spec (sdid (gr s1) n) (nextd (gr s1))) as [X|_]; [destruct (IL n ltac:(lia)); lia|].
    destruct (Nat.eqb_spec (sdid (gr s1) n) (sdid (gr s1) d)) as [X|_]; [apply IS in X as [X|[_ X]]; try lia; tauto|].
    destruct (Nat.eqb_spec (sdid (gr s1) n) (sdid (gr s1) (S k))) as [X|_]; [apply IS in X as [X|[_ X]]; try lia; rewrite <- Sk in X; exfalso; apply (NSk 1 X)|]. now apply (Vo n). }
  assert (W2 : forall n, n < k -> n <> S d -> Pred g2 n = Pred (gr s) n).
  { intros n X1 X2. unfold Pred at 1. rewrite Q2, Q4. rewrite (upd_neq _ (S d) n) by auto. rewrite (upd_neq _ k n) by lia. destruct (Nat.eqb_spec (pdid (gr s1) n) (nextd (gr s1))) as [X|_]; [destruct (IL n ltac:(lia)); lia|].
    destruct (Nat.eqb_spec (pdid (gr s1) n) (sdid (gr s1) d)) as [X|_]; [exfalso; symmetry in X; apply ISP in X; lia|].
    destruct (Nat.eqb_spec (pdid (gr s1) n) (sdid (gr s1) (S k))) as [X|_]; [exfalso; symmetry in X; apply ISP in X; lia|]. now apply (Vo n). }
  assert (Inf2 : forall n, n < k -> kd i2 n = kd (inf s) n /\ nm i2 n = nm (inf s) n /\ par i2 n = par (inf s) n /\ im i2 n = im (inf s) n).
  { intros n X. destruct (E n X) as (X1 & X2 & X3 & X4 & _). unfold i2, set_par. cbn [kd nm par im]. rewrite upd_neq by lia. auto. }
  assert (Cm2 : com i2 g2 (map fst att)).
  { constructor. intros n X. rewrite U2, W2 by lia. destruct (Inf2 n) as (-> & -> & -> & ->); [lia|]. exact (cm _ _ _ (inv_com s att V) n X). }
  assert (Fn : d_find (30 + f) s2 false (QNode d) COMMON = Some FNone) by (unfold d_find, COMMON; cbn [gr inf s2]; change (30 + f) with (11 + (19 + f)); apply (com_find_node _ _ _ Cm2); exact H1).
  rewrite Fn. unfold join_common.
  assert (Fr : d_find (30 + f) s2 true (QImp RUN) COMMON = Some (FNode 6)) by (unfold d_find, COMMON; cbn [gr inf s2]; change (30 + f) with (6 + (24 + f)); apply (com_find_run _ _ _ Cm2)).
  rewrite Fr. unfold add_part. cbn [gr inf cnt endn s2]. destruct (E 0) as (_ & _ & _ & _ & E0); [lia|]. unfold COMMON. rewrite E0, (v_end0 _ _ V), Ed, De. unfold lift, add. cbn [Nat.eqb].
  (* and this next to "run" *)
  destruct (cm _ _ _ Cm2 6) as (S6 & P6 & _); [lia|]. cbn in S6. specialize (P6 ltac:(lia)). cbn in P6.
  destruct (attach2 g2 d P6 S6) as (R1 & R2 & R3 & R4); try lia.
  { rewrite Q1, Q2. rewrite !upd_neq by lia. apply ISP; lia. }
  set (g3 := add_with g2 d (S d) 6) in *. rewrite Q1 in R1. rewrite Q2 in R2. rewrite Q3 in R3.
  rewrite (upd_neq _ (S d) 6), (upd_neq _ k 6) in R2 by lia.
  assert (R4' : forall x, dict g3 x = if x =? sdid (gr s1) 5 then dict (gr s1) x ++ [d] else if x =? pdid (gr s1) 7 then dict (gr s1) x ++ [S d] else
     if x =? nextd (gr s1) then [S k] else if x =? sdid (gr s1) d then [k] else if x =? sdid (gr s1) (S k) then [S d] else dict (gr s1) x).
  { intros x. rewrite R4, Q1, Q2, Q4. rewrite (upd_neq _ (S d) 7), (upd_neq _ k 7) by lia.
    destruct (Nat.eqb_spec x (sdid (gr s1) 5)) as [->|_].
    - destruct (Nat.eqb_spec (sdid (gr s1) 5) (nextd (gr s1))) as [X|_]; [destruct (IL 5 ltac:(lia)); lia|]. destruct (Nat.eqb_spec (sdid (gr s1) 5) (sdid (gr s1) d)) as [X|_]; [apply IS in X as [X|[_ X]]; try lia; tauto|].
      destruct (Nat.eqb_spec (sdid (gr s1) 5) (sdid (gr s1) (S k))) as [X|_]; [apply IS in X as [X|[X _]]; try lia; tauto|]. apply dput_new. fold (Succ (gr s1) 5). destruct (Vo 5) as [-> _]; [lia|]. destruct (v_com _ _ V 5) as (-> & _); [lia|]. cbn. intros [X|X]; [lia|tauto].
    - destruct (Nat.eqb_spec x (pdid (gr s1) 7)) as [->|_]; [|reflexivity].
      destruct (Nat.eqb_spec (pdid (gr s1) 7) (nextd (gr s1))) as [X|_]; [destruct (IL 7 ltac:(lia)); lia|]. destruct (Nat.eqb_spec (pdid (gr s1) 7) (sdid (gr s1) d)) as [X|_]; [exfalso; symmetry in X; apply ISP in X; lia|].
      destruct (Nat.eqb_spec (pdid (gr s1) 7) (sdid (gr s1) (S k))) as [X|_]; [exfalso; symmetry in X; apply ISP in X; lia|]. apply dput_new. fold (Pred (gr s1) 7). destruct (Vo 7) as [_ ->]; [lia|]. destruct (v_com _ _ V 7) as (_ & -> & _); [lia|]. cbn. intros [X|X]; [lia|].
      apply in_map_iff in X as (a & X & Ha). injection X as <-. apply H4. now apply in_map. }
  clear R4. assert (Sx : forall n, n < k + 14 -> n <> S d -> sdid g3 n = sdid (gr s1) n) by (intros n X1 X2; rewrite R1; now rewrite upd_neq).
  assert (Px : forall n, n < k + 14 -> n <> d -> n <> S d -> n <> k -> pdid g3 n = pdid (gr s1) n) by (intros n X1 X2 X3 X4; rewrite R2; now rewrite !upd_neq by auto).
  assert (SV : forall n, n < k + 14 -> n <> S d -> n <> 5 -> n <> d -> n <> S k -> Succ g3 n = Succ (gr s1) n).
  { intros n X1 X2 X3 X4 X5. unfold Succ. rewrite Sx, R4' by auto. destruct (Nat.eqb_spec (sdid (gr s1) n) (sdid (gr s1) 5)) as [X|_]; [apply IS in X as [X|[_ X]]; try lia; tauto|].
    destruct (Nat.eqb_spec (sdid (gr s1) n) (pdid (gr s1) 7)) as [X|_]; [exfalso; apply ISP in X; lia|]. destruct (Nat.eqb_spec (sdid (gr s1) n) (nextd (gr s1))) as [X|_]; [destruct (IL n X1); lia|].
    destruct (Nat.eqb_spec (sdid (gr s1) n) (sdid (gr s1) d)) as [X|_]; [apply IS in X as [X|[_ X]]; try lia; tauto|].
    destruct (Nat.eqb_spec (sdid (gr s1) n) (sdid (gr s1) (S k))) as [X|_]; [apply IS in X as [X|[_ X]]; try lia; exfalso; rewrite <- Sk in X; apply (NSk 1 X)|reflexivity]. }
  assert (PV : forall n, n < k + 14 -> n <> d -> n <> S d -> n <> k -> n <> 7 -> Pred g3 n = Pred (gr s1) n).
  { intros n X1 X2 X3 X4 X5. unfold Pred. rewrite Px, R4' by auto. destruct (Nat.eqb_spec (pdid (gr s1) n) (sdid (gr s1) 5)) as [X|_]; [exfalso; symmetry in X; apply ISP in X; lia|].
    destruct (Nat.eqb_spec (pdid (gr s1) n) (pdid (gr s1) 7)) as [X|_]; [apply IP in X as [X|[_ X]]; try lia; tauto|]. destruct (Nat.eqb_spec (pdid (gr s1) n) (nextd (gr s1))) as [X|_]; [destruct (IL n X1); lia|].
    destruct (Nat.eqb_spec (pdid (gr s1) n) (sdid (gr s1) d)) as [X|_]; [exfalso; symmetry in X; apply ISP in X; lia|].
    destruct (Nat.eqb_spec (pdid (gr s1) n) (sdid (gr s1) (S k))) as [X|_]; [exfalso; symmetry in X; apply ISP in X; lia|reflexivity]. }
  destruct (IL 6 ltac:(lia)) as [L6 L6']. destruct (IL (S d) ltac:(lia)) as [LSd LSd'].
  assert (P6' : PSet att 6) by now left. assert (S6' : SSet att 6) by now left.
  (* the special phases *)
  assert (S5 : Succ g3 5 = 6 :: map fst att ++ [d]).
  { unfold Succ. rewrite Sx, R4', Nat.eqb_refl by lia. fold (Succ (gr s1) 5). destruct (Vo 5) as [-> _]; [lia|]. destruct (v_com _ _ V 5) as (-> & _); [lia|reflexivity]. }
  assert (P7 : Pred g3 7 = 6 :: map (fun a => S (fst a)) att ++ [S d]).
  { unfold Pred. rewrite Px, R4' by lia. destruct (Nat.eqb_spec (pdid (gr s1) 7) (sdid (gr s1) 5)) as [X|_]; [exfalso; symmetry in X; apply ISP in X; lia|]. rewrite Nat.eqb_refl. fold (Pred (gr s1) 7). destruct (Vo 7) as [_ ->]; [lia|]. destruct (v_com _ _ V 7) as (_ & -> & _); [lia|reflexivity]. }
  assert (Sd3 : Succ g3 d = [k]).
  { unfold Succ. rewrite Sx, R4' by lia. destruct (Nat.eqb_spec (sdid (gr s1) d) (sdid (gr s1) 5)) as [X|_]; [apply IS in X as [X|[_ X]]; try lia; tauto|]. destruct (Nat.eqb_spec (sdid (gr s1) d) (pdid (gr s1) 7)) as [X|_]; [exfalso; apply ISP in X; lia|].
    destruct (Nat.eqb_spec (sdid (gr s1) d) (nextd (gr s1))) as [X|_]; [lia|]. now rewrite Nat.eqb_refl. }
  assert (SSk3 : Succ g3 (S k) = [S d]).
  { unfold Succ. rewrite Sx, R4' by lia. destruct (Nat.eqb_spec (sdid (gr s1) (S k)) (sdid (gr s1) 5)) as [X|_]; [apply IS in X as [X|[_ X]]; try lia; tauto|]. destruct (Nat.eqb_spec (sdid (gr s1) (S k)) (pdid (gr s1) 7)) as [X|_]; [exfalso; apply ISP in X; lia|].
    destruct (Nat.eqb_spec (sdid (gr s1) (S k)) (nextd (gr s1))) as [X|_]; [lia|]. destruct (Nat.eqb_spec (sdid (gr s1) (S k)) (sdid (gr s1) d)) as [X|_]; [apply IS in X as [X|[_ X]]; try lia; tauto|]. now rewrite Nat.eqb_refl. }
  assert (SSd3 : Succ g3 (S d) = [7]).
  { transitivity (Succ g3 6); [unfold Succ; now rewrite (Sx 6), R1, upd_eq by lia|]. rewrite SV by lia. destruct (Vo 6) as [-> _]; [lia|]. destruct (v_com _ _ V 6) as (-> & _); [lia|reflexivity]. }
  assert (Pd3 : Pred g3 d = [5]).
  { transitivity (Pred g3 6); [unfold Pred; now rewrite (Px 6), R2, upd_eq by lia|]. rewrite PV by lia. destruct (Vo 6) as [_ ->]; [lia|]. destruct (v_com _ _ V 6) as (_ & -> & _); [lia|reflexivity]. }
  assert (PSd3 : Pred g3 (S d) = [S k]).
  { unfold Pred. rewrite R2, (upd_neq _ d), upd_eq, R4' by lia. destruct (Nat.eqb_spec (nextd (gr s1)) (sdid (gr s1) 5)) as [X|_]; [destruct (IL 5 ltac:(lia)); lia|]. destruct (Nat.eqb_spec (nextd (gr s1)) (pdid (gr s1) 7)) as [X|_]; [destruct (IL 7 ltac:(lia)); lia|]. now rewrite Nat.eqb_refl. }
  assert (Pk3 : Pred g3 k = [d]).
  { unfold Pred. rewrite R2, (upd_neq _ d), (upd_neq _ (S d)), upd_eq, R4' by lia. destruct (Nat.eqb_spec (pdid (gr s1) (S d)) (sdid (gr s1) 5)) as [X|_]; [exfalso; symmetry in X; apply ISP in X; lia|].
    destruct (Nat.eqb_spec (pdid (gr s1) (S d)) (pdid (gr s1) 7)) as [X|_]; [apply IP in X as [X|[_ X]]; try lia; tauto|]. destruct (Nat.eqb_spec (pdid (gr s1) (S d)) (nextd (gr s1))) as [X|_]; [lia|].
    destruct (Nat.eqb_spec (pdid (gr s1) (S d)) (sdid (gr s1) d)) as [X|_]; [exfalso; symmetry in X; apply ISP in X; lia|]. destruct (Nat.eqb_spec (pdid (gr s1) (S d)) (sdid (gr s1) (S k))) as [X|_]; [exfalso; symmetry in X; apply ISP in X; lia|].
    fold (Pred (gr s1) (S d)). now rewrite PSd. }
  assert (Old3 : forall n, n < k -> n <> 5 -> n <> d -> n <> S d -> Succ g3 n = Succ (gr s) n) by (intros n X1 X2 X3 X4; rewrite SV by lia; now apply (Vo n)).
  assert (OldP3 : forall n, n < k -> n <> 7 -> n <> d -> n <> S d -> Pred g3 n = Pred (gr s) n) by (intros n X1 X2 X3 X4; rewrite PV by lia; now apply (Vo n)).
  set (i3 := set_par i2 d 0).
  assert (Inf3 : forall n, n < k -> kd i3 n = kd (inf s) n /\ nm i3 n = nm (inf s) n /\ (n <> d -> par i3 n = par (inf s) n) /\ im i3 n = im (inf s) n).
  { intros n X. destruct (Inf2 n X) as (X1 & X2 & X3 & X4). unfold i3, set_par. cbn [kd nm par im]. repeat split; auto. intros X5. now rewrite upd_neq. }
  assert (Inf3n : forall j, j < 14 -> kd i3 (k + j) = kd (inf block) j /\ nm i3 (k + j) = nm (inf block) j /\ im i3 (k + j) = im (inf block) j /\ par i3 (k + j) = if j =? 0 then Some d else option_map (Nat.add k) (par (inf block) j)).
  { intros j X. destruct (F j X) as (X1 & X2 & X3 & X4). unfold i3, i2, set_par. cbn [kd nm par im]. repeat split; auto. rewrite (upd_neq _ d) by lia. destruct (Nat.eqb_spec j 0) as [->|X5]; [rewrite Nat.add_0_r, upd_eq; reflexivity|]. now rewrite upd_neq by lia. }
  eexists. split; [reflexivity|]. cbn [cnt]. split; [|split; [exact B|intros n X; exact (proj1 (Inf3 n X))]].
  constructor; cbn [gr inf cnt endn]; rewrite ?B.
  - lia.
  - apply (ids_attach (gr s1) g3 (k + 14) (SSet att) (PSet att) (SSet (att ++ [(d, k)])) (PSet (att ++ [(d, k)])) d k); auto; try lia.
    + intros X. rewrite <- (Nat.add_0_r k) in X. apply (NPk 0 X).
    + intros n. unfold SSet. split; [intros [X|(a & Ha & X)]; [auto|]; apply in_app_or in Ha as [Ha|[<-|[]]]; [left; right; eauto|right; exact X]|]. intros [[X|(a & Ha & X)]|X]; [auto|right; exists a; split; [apply in_or_app; auto|exact X]|]. right. exists (d, k). split; [apply in_or_app; right; now left|exact X].
    + intros n. unfold PSet. split; [intros [X|(a & Ha & X)]; [auto|]; apply in_app_or in Ha as [Ha|[<-|[]]]; [left; right; eauto|right; exact X]|]. intros [[X|(a & Ha & X)]|X]; [auto|right; exists a; split; [apply in_or_app; auto|exact X]|]. right. exists (d, k). split; [apply in_or_app; right; now left|exact X].
  - intros n X. destruct (v_com _ _ V n X) as (X1 & X2 & X3 & X4 & X5 & X6). destruct (Inf3 n) as (-> & -> & Y & ->); [lia|]. rewrite Y by lia. clear Y. repeat split; auto.
    + destruct (Nat.eqb_spec n 5) as [->|N5]; [rewrite S5, map_app; reflexivity|]. now rewrite Old3 by lia.
    + destruct (Nat.eqb_spec n 7) as [->|N7]; [rewrite P7, map_app; reflexivity|]. now rewrite OldP3 by lia.
  - cbn [endn s2]. rewrite E0. apply (v_end0 _ _ V).
  - intros x X1 X2 X3. assert (Hx : x < k). { destruct (Nat.lt_ge_cases x k) as [|X4]; [assumption|]. exfalso. destruct (Inf3n (x - k)) as (Y & _); [lia|]. replace (k + (x - k)) with x in Y by lia. rewrite Y in X3. revert X3. apply block_kd. lia. }
    destruct (Inf3 x Hx) as (Y1 & Y2 & _ & Y4). rewrite Y1 in X3. destruct (v_dom _ _ V x X1 Hx X3) as (Z1 & Z2 & Z3 & Z4 & Z5 & Z6 & Z7 & Z8). destruct (Inf3 (S x) Z2) as (W1 & W2' & W3 & W4). destruct (E x Hx) as (_ & _ & _ & _ & T5).
    cbn [endn s2]. rewrite T5, W1, Y2, W2', Y4, W4. rewrite W3 by (intros <-; congruence). fold k in Z2. repeat split; auto; lia.
  - intros x X1 X2 X3 X4. rewrite map_app in X4. cbn in X4.
    assert (Hx : x < k). { destruct (Nat.lt_ge_cases x k) as [|X5]; [assumption|]. exfalso. destruct (Inf3n (x - k)) as (Y & _); [lia|]. replace (k + (x - k)) with x in Y by lia. rewrite Y in X3. revert X3. apply block_kd. lia. }
    assert (Hxd : x <> d) by (intros ->; apply X4, in_or_app; right; now left). destruct (Inf3 x Hx) as (Y1 & _). rewrite Y1 in X3. destruct (v_dom _ _ V x X1 Hx X3) as (_ & Z2 & Z3 & _).
    assert (S x <> d) by (intros <-; congruence). assert (x <> S d) by (intros ->; congruence). fold k in Z2. rewrite (Old3 x), (Old3 (S x)), (OldP3 x), (OldP3 (S x)) by lia. apply (v_free _ _ V); auto. intros X. apply X4, in_or_app. now left.
  - intros a b Ha. apply in_app_or in Ha as [Ha|[[= <- <-]|[]]].
    + destruct (v_att _ _ V a b Ha) as (X1 & X2 & X3 & X4 & X5 & X6 & X7 & X8 & X9). destruct (Catt a b Ha) as (_ & Y2 & _ & _ & _ & Y6). destruct (Inf3 a) as (-> & _); [lia|].
      assert (a <> d) by (intros ->; apply H4, in_map_iff; exists (d, b); auto). assert (S a <> d) by (intros <-; congruence). assert (a <> S d) by (intros ->; congruence). rewrite !Old3, !OldP3 by lia. repeat split; auto; lia.
    + destruct (Inf3 d H2) as (-> & _). repeat split; auto; lia.
  - intros a b Ha j Hj. apply in_app_or in Ha as [Ha|[[= <- <-]|[]]].
    + destruct (Catt a b Ha) as (Y1 & Y2 & Y3 & Y4 & Y5 & Y6). destruct (v_blk _ _ V a b Ha j Hj) as (Z1 & Z2 & Z3 & Z4 & Z5 & Z6). destruct (Inf3 (b + j)) as (-> & -> & W3 & ->); [lia|].
      assert (Nd : b + j <> d) by (intros X; rewrite X in Z3; pose proof (block_kd j Hj); congruence). assert (NSd' : b + j <> S d).
      { intros X. rewrite X in Z3, Z6. rewrite D3 in Z3. rewrite D6 in Z6. destruct (Nat.eqb_spec j 0) as [->|N0].
        - injection Z6 as <-. apply H4, in_map_iff. exists (d, b). auto.
        - assert (Hj1 : j = 1). { symmetry in Z3. exact (block_term j Hj Z3). }
          subst j. rewrite (proj2 (proj2 block_at)) in Z6. cbn [option_map] in Z6. rewrite Nat.add_0_r in Z6. injection Z6 as <-. destruct (v_blk _ _ V a d Ha 0) as (_ & _ & T & _); [lia|]. rewrite Nat.add_0_r in T. rewrite H3, (proj1 block_at) in T. discriminate. }
      rewrite W3 by auto. rewrite Old3, OldP3 by lia. auto 10.
    + destruct (Inf3n j Hj) as (-> & -> & -> & ->). destruct (Vn' j Hj) as [X1 X2]. repeat split.
      * destruct (Nat.eqb_spec j 1) as [->|N1]; [rewrite Sk; exact SSk3|]. rewrite SV by lia. exact X1.
      * destruct (Nat.eqb_spec j 0) as [->|N0]; [rewrite Nat.add_0_r; exact Pk3|]. rewrite PV by lia. exact X2.
  - intros n X. destruct (Nat.lt_ge_cases n k) as [Hn|Hn]; [|right; right; right; exists d, k, (n - k); split; [apply in_or_app; right; now left|split; lia]].
    destruct (Inf3 n Hn) as (-> & _). destruct (v_lay _ _ V n Hn) as [L|[L|[(x & L1 & L2 & L3)|(a & b & j & L1 & L2 & L3)]]]; auto.
    + right. right. left. exists x. destruct (Inf3 x) as (-> & _); [lia|]. auto.
    + right. right. right. exists a, b, j. split; [apply in_or_app; auto|auto].
  - rewrite map_app. cbn. rewrite <- (rev_involutive (map fst att ++ [d])), rev_app_distr. apply NoDup_rev. cbn. constructor; [rewrite <- in_rev; exact H4|apply NoDup_rev, (v_nd _ _ V)].
Qed.

(** *** A whole domain *)
Lemma block_links : Succ (gr block) 0 = [2] /\ Pred (gr block) 2 = [0] /\ Succ (gr block) 13 = [1] /\ Pred (gr block) 1 = [13] /\
  forall j, 2 <= j -> j < 13 -> Succ (gr block) j = [S j] /\ Pred (gr block) (S j) = [j].
Proof.
  do 4 (split; [vm_compute; reflexivity|]). intros j H1 H2. do 13 (destruct j as [|j]; [first [lia|vm_compute; auto]|]). lia.
Qed.
Lemma block_phase j : j < 12 -> kd (inf block) (2 + j) = NODE /\ par (inf block) (2 + j) = Some 0 /\ im (inf block) (2 + j) = Some (9 + j) /\ Some (nm (inf block) (2 + j)) = nth_error (map snd run_time) j.
Proof. intros H. do 12 (destruct j as [|j]; [vm_compute; auto|]). lia. Qed.
Lemma block_ends : kd (inf block) 1 = TERMINAL /\ im (inf block) 0 = None /\ im (inf block) 1 = None.
Proof. vm_compute. auto. Qed.
Lemma inv_whole s att d k : Inv s att -> In (d, k) att -> whole (inf s) (Succ (gr s)) (Pred (gr s)) d k (S k) (map (fun j => k + (2 + j)) (seq 0 12)) (S d).
Proof.
  intros V H. destruct (v_att _ _ V d k H) as (H1 & H2 & H3 & H4 & H5 & H6 & H7 & H8 & H9). destruct (v_dom _ _ V d H1 H2 H3) as (_ & _ & D3 & _).
  assert (B : forall j, j < 14 -> Succ (gr s) (k + j) = (if j =? 1 then [S d] else sh k (Succ (gr block) j)) /\ Pred (gr s) (k + j) = (if j =? 0 then [d] else sh k (Pred (gr block) j)) /\
    kd (inf s) (k + j) = kd (inf block) j /\ nm (inf s) (k + j) = nm (inf block) j /\ im (inf s) (k + j) = im (inf block) j /\ par (inf s) (k + j) = (if j =? 0 then Some d else option_map (Nat.add k) (par (inf block) j))) by exact (v_blk _ _ V d k H).
  destruct block_links as (L1 & L2 & L3 & L4 & L5).
  destruct (B 0) as (B1 & B2 & B3 & B4 & _ & B6); [lia|]. rewrite Nat.add_0_r in *. destruct (B 1) as (C1 & C2 & C3 & _); [lia|]. rewrite Nat.add_1_r in *. cbn [Nat.eqb] in *.
  rewrite (proj1 block_at) in B3. rewrite (proj1 (proj2 block_at)) in B4. rewrite (proj1 block_ends) in C3. rewrite L1 in B1. rewrite L4 in C2.
  assert (P : forall j, j < 12 -> kd (inf s) (k + (2 + j)) = NODE /\ par (inf s) (k + (2 + j)) = Some k /\ im (inf s) (k + (2 + j)) = Some (9 + j) /\ Some (nm (inf s) (k + (2 + j))) = nth_error (map snd run_time) j).
  { intros j Hj. destruct (B (2 + j)) as (_ & _ & E3 & E4 & E5 & E6); [lia|]. destruct (block_phase j Hj) as (F1 & F2 & F3 & F4). rewrite E3, E4, E5, E6, F1, F2, F3, <- F4. cbn [Nat.eqb Nat.add option_map]. rewrite Nat.add_0_r. auto. }
  unfold whole. split; [exact B3|]. split; [exact B4|]. split; [exact B6|]. split; [exact C3|]. split; [exact D3|]. split.
  - cbn [seq map]. unfold run_time. repeat match goal with |- Forall2 _ (k + (2 + ?j) :: _) _ => constructor; [destruct (P j ltac:(lia)) as (P1 & P2 & P3 & P4); cbn [nth_error map run_time] in P4; cbn [fst snd] in P4 |- *; injection P4 as P4; auto|] end. constructor.
  - assert (X : forall j, 2 <= j -> j < 13 -> Succ (gr s) (k + j) = [k + S j] /\ Pred (gr s) (k + S j) = [k + j]).
    { intros j X1 X2. destruct (B j) as (Y1 & _); [lia|]. destruct (B (S j)) as (_ & Y2 & _); [lia|]. destruct (L5 j X1 X2) as [Z1 Z2]. rewrite Y1, Y2, Z1, Z2. destruct (Nat.eqb_spec j 1); [lia|]. auto. }
    destruct (B 2) as (_ & E2 & _); [lia|]. destruct (B 13) as (E13 & _); [lia|]. rewrite L2 in E2. rewrite L3 in E13. cbn [Nat.eqb sh map] in *. rewrite Nat.add_0_r in E2. rewrite Nat.add_1_r in E13.
    cbn [seq map app]. cbn [Nat.add]. split; [exact H7|]. split; [exact B2|]. split; [exact B1|]. split; [exact E2|].
    do 11 (match goal with |- chain _ _ (k + ?j :: _) => destruct (X j ltac:(lia) ltac:(lia)) as [X1 X2]; split; [exact X1|]; split; [exact X2|]; clear X1 X2 end).
    split; [exact E13|]. split; [exact C2|]. split; [exact C1|]. split; [exact H8|exact I].
Qed.
(** The phases with an IMP: those of "common", and the run-time phases of the domains that were set *)
Lemma inv_phases s att n p : Inv s att -> n < cnt s -> im (inf s) n = Some p -> (2 <= n <= 10 /\ p = n - 2) \/ exists d k j, In (d, k) att /\ j < 12 /\ n = k + (2 + j) /\ p = 9 + j.
Proof.
  intros V Hn Hp. destruct (v_lay _ _ V n Hn) as [L|[[L1 L2]|[(x & L1 & -> & L3)|(d & k & j & L1 & L2 & ->)]]].
  - left. destruct (v_com _ _ V n L) as (_ & _ & _ & _ & _ & X). rewrite X in Hp. destruct (Nat.leb_spec 2 n); [injection Hp as <-; lia|discriminate].
  - destruct (v_dom _ _ V n L1 Hn L2) as (_ & _ & _ & _ & _ & _ & X & _). congruence.
  - assert (Hx : x < cnt s) by lia. destruct (v_dom _ _ V x L1 Hx L3) as (_ & _ & _ & _ & _ & _ & _ & X). congruence.
  - right. destruct (v_blk _ _ V d k L1 j L2) as (_ & _ & _ & _ & X & _). rewrite X in Hp. destruct block_ends as (_ & Y0 & Y1). destruct j as [|[|j]]; [congruence|congruence|].
    destruct (block_phase j) as (_ & _ & Z & _); [lia|]. cbn [Nat.add] in Z. rewrite Z in Hp. injection Hp as <-. exists d, k, j. repeat split; auto; lia.
Qed.
Lemma domain_fun i n r r' : domain_is i n r -> domain_is i n r' -> r = r'.
Proof. intros H. revert r'. induction H; intros r' H'; inversion H'; subst; try congruence; try contradiction. rewrite H0 in H3. injection H3 as <-. auto. Qed.
Lemma inv_domain s att d k j : Inv s att -> In (d, k) att -> j < 12 -> domain_is (inf s) (k + (2 + j)) (Some d).
Proof.
  intros V H Hj. destruct (inv_whole s att d k V H) as (_ & _ & _ & _ & _ & _ & _). destruct (v_att _ _ V d k H) as (_ & _ & H3 & _).
  destruct (v_blk _ _ V d k H (2 + j)) as (_ & _ & B3 & _ & _ & B6); [lia|]. destruct (v_blk _ _ V d k H 0) as (_ & _ & C3 & _ & _ & C6); [lia|]. destruct (block_phase j Hj) as (F1 & F2 & _). rewrite F1 in B3. rewrite F2 in B6. cbn [Nat.eqb Nat.add option_map] in *. rewrite Nat.add_0_r in *.
  rewrite (proj1 block_at) in C3. apply dom_up with k; [congruence|exact B6|]. apply dom_up with d; [congruence|exact C6|]. now apply dom_self.
Qed.
Lemma inv_fun s att d k k' : Inv s att -> In (d, k) att -> In (d, k') att -> k = k'.
Proof. intros V H H'. destruct (v_att _ _ V d k H) as (_ & _ & _ & _ & _ & _ & X & _). destruct (v_att _ _ V d k' H') as (_ & _ & _ & _ & _ & _ & Y & _). congruence. Qed.
(** The first domains *)
Definition idsc (g : pg) (c : nat) (ss ps : list nat) : bool :=
  forallb (fun n => (sdid g n <? nextd g) && (pdid g n <? nextd g) &&
    forallb (fun m => (negb (sdid g n =? sdid g m) || (n =? m) || (existsb (Nat.eqb n) ss && existsb (Nat.eqb m) ss)) && (negb (pdid g n =? pdid g m) || (n =? m) || (existsb (Nat.eqb n) ps && existsb (Nat.eqb m) ps)) && negb (sdid g n =? pdid g m)) (seq 0 c)) (seq 0 c).
Lemma existsb_in n l : existsb (Nat.eqb n) l = true -> In n l.
Proof. intros H. apply existsb_exists in H as (x & Hx & E). apply Nat.eqb_eq in E. now subst. Qed.
Lemma idsc_ok g c ss ps (SS PS : nat -> Prop) : idsc g c ss ps = true -> (forall n, In n ss -> SS n) -> (forall n, In n ps -> PS n) -> ids g c SS PS.
Proof.
  unfold idsc. rewrite forallb_forall. intros H Hs Hp.
  assert (H1 : forall n, n < c -> sdid g n < nextd g /\ pdid g n < nextd g).
  { intros n Hn. specialize (H n ltac:(apply in_seq; lia)). rewrite !andb_true_iff in H. destruct H as [[H1 H2] _]. apply Nat.ltb_lt in H1, H2. auto. }
  assert (H2 : forall n m, n < c -> m < c -> (sdid g n = sdid g m -> n = m \/ SS n /\ SS m) /\ (pdid g n = pdid g m -> n = m \/ PS n /\ PS m) /\ sdid g n <> pdid g m).
  { intros n m Hn Hm. specialize (H n ltac:(apply in_seq; lia)). rewrite andb_true_iff in H. destruct H as [_ H]. rewrite forallb_forall in H. specialize (H m ltac:(apply in_seq; lia)).
    rewrite (andb_true_iff _ (negb _)), (andb_true_iff (_ || _)) in H. destruct H as [[A B] C].
    split; [|split].
    - intros E. rewrite E, Nat.eqb_refl in A. cbn [negb orb] in A. apply orb_true_iff in A as [A|A]; [left; now apply Nat.eqb_eq|]. apply andb_true_iff in A as [A1 A2]. right. split; apply Hs; now apply existsb_in.
    - intros E. rewrite E, Nat.eqb_refl in B. cbn [negb orb] in B. apply orb_true_iff in B as [B|B]; [left; now apply Nat.eqb_eq|]. apply andb_true_iff in B as [A1 A2]. right. split; apply Hp; now apply existsb_in.
    - intros E. rewrite E, Nat.eqb_refl in C. discriminate. }
  constructor; [exact H1| | |].
  - intros n m Hn Hm E. destruct (H2 n m Hn Hm) as (A & _ & _). exact (A E).
  - intros n m Hn Hm E. destruct (H2 n m Hn Hm) as (_ & A & _). exact (A E).
  - intros n m Hn Hm. destruct (H2 n m Hn Hm) as (_ & _ & A). exact A.
Qed.
Lemma std_ids : idsc (gr std) 27 [6; 12] [6; 11] = true.
Proof. vm_compute. reflexivity. Qed.
Lemma std_inv : Inv std [(11, 13)].
Proof.
  assert (C : cnt std = 27) by (vm_compute; reflexivity).
  assert (K : forall d, 10 < d -> d < 27 -> kd (inf std) d = DOMAIN -> d = 11).
  { intros d H1 H2. do 11 (destruct d as [|d]; [lia|]). destruct d as [|d]; [reflexivity|]. do 15 (destruct d as [|d]; [vm_compute; discriminate|]). lia. }
  constructor; rewrite ?C.
  - lia.
  - apply (idsc_ok _ _ [6; 12] [6; 11] _ _ std_ids); intros n [<-|[<-|[]]]; [left; reflexivity|right; exists (11, 13); split; [now left|reflexivity]|left; reflexivity|right; exists (11, 13); split; [now left|reflexivity]].
  - intros n Hn. do 11 (destruct n as [|n]; [vm_compute; repeat split|]). lia.
  - vm_compute. reflexivity.
  - intros d H1 H2 H3. rewrite (K d H1 H2 H3). split; [vm_compute; reflexivity|]. split; [lia|]. split; [vm_compute; reflexivity|]. split; [vm_compute; discriminate|]. vm_compute. repeat split.
  - intros d H1 H2 H3 H4. exfalso. apply H4. rewrite (K d H1 H2 H3). now left.
  - intros d k [[= <- <-]|[]]. split; [lia|]. split; [lia|]. split; [vm_compute; reflexivity|]. split; [lia|]. split; [lia|]. vm_compute. repeat split.
  - intros d k [[= <- <-]|[]] j Hj. do 14 (destruct j as [|j]; [vm_compute; repeat split|]). lia.
  - intros n Hn. destruct (Nat.le_gt_cases n 10); [auto|]. right. destruct (Nat.eq_dec n 11) as [->|]; [left; split; [lia|vm_compute; reflexivity]|]. right. destruct (Nat.eq_dec n 12) as [->|]; [left; exists 11; split; [lia|split; [reflexivity|vm_compute; reflexivity]]|].
    right. exists 11, 13, (n - 13). cbn. split; [auto|lia].
  - cbn. constructor; [intros []|constructor].
Qed.
