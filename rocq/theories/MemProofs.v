From Coq Require Import ZArith List Bool Arith Lia.
From Verif Require Import RegMapModel RegMapSpec RegMapProofs RegMapProps MemModel MemSpec.
Import ListNotations.
Open Scope Z_scope.

Lemma trunc_bit n v i : 0 <= n -> 0 <= i -> Z.testbit (trunc n v) i = (i <? n) && Z.testbit v i.
Proof.
  intros Hn Hi. unfold trunc. rewrite Z.land_spec, Z.shiftl_1_l.
  replace (2 ^ n - 1) with (Z.ones n) by (rewrite Z.ones_equiv; lia).
  rewrite Z.testbit_ones_nonneg by lia. apply andb_comm.
Qed.
Lemma trunc_range n v : 0 <= n -> 0 <= trunc n v < 2 ^ n.
Proof.
  intros Hn. unfold trunc. rewrite Z.shiftl_1_l.
  replace (2 ^ n - 1) with (Z.ones n) by (rewrite Z.ones_equiv; lia).
  rewrite Z.land_ones by lia. apply Z.mod_pos_bound. apply Z.pow_pos_nonneg; lia.
Qed.
Lemma trunc_id n v : 0 <= n -> (trunc n v = v <-> 0 <= v < 2 ^ n).
Proof.
  intros Hn. split; [intros <-; now apply trunc_range|]. intros H. unfold trunc. rewrite Z.shiftl_1_l.
  replace (2 ^ n - 1) with (Z.ones n) by (rewrite Z.ones_equiv; lia).
  rewrite Z.land_ones by lia. now apply Z.mod_small.
Qed.
Lemma trunc_mod n v : 0 <= n -> trunc n v = v mod 2 ^ n.
Proof. intros H. rewrite <- Z.land_ones by exact H. reflexivity. Qed.
Lemma trunc_trunc n v : 0 <= n -> trunc n (trunc n v) = trunc n v.
Proof. intros Hn. apply trunc_id; [exact Hn|]. now apply trunc_range. Qed.
Lemma kept_fun F n c v s s' : kept F n c v s -> kept F n c v s' -> s = s'.
Proof.
  intros [Hs H] [Hs' H']. apply Z.bits_inj'. intros i Hi. specialize (H i Hi). specialize (H' i Hi).
  destruct (Z.testbit s i), (Z.testbit s' i); try reflexivity; [symmetry; tauto|tauto].
Qed.
Lemma bits_trunc n v s : 0 <= n -> 0 <= s ->
  (s = trunc n v <-> forall i, 0 <= i -> (Z.testbit s i = true <-> i < n /\ Z.testbit v i = true)).
Proof.
  intros Hn Hs. split.
  - intros -> i Hi. rewrite trunc_bit by lia. rewrite andb_true_iff, Z.ltb_lt. tauto.
  - intros H. apply Z.bits_inj'. intros i Hi. rewrite trunc_bit by lia. specialize (H i Hi).
    destruct (Z.ltb_spec i n), (Z.testbit s i), (Z.testbit v i); cbn [andb]; try reflexivity; exfalso;
      first [assert (i < n) by tauto; lia | destruct H as [_ H]; discriminate H; auto | destruct H as [H _]; specialize (H eq_refl); destruct H; discriminate || lia].
Qed.

(** ** Walk over a faulty memory *)
Section Walk.
Context (F : faults) (n size : Z) (wr : (Z -> Z) -> Z -> Z -> (Z -> Z) * status) (rd : (Z -> Z) -> Z -> Z * status).
Context (B : behaves F n wr rd) (Hn : 0 < n) (Cons : consistent F).
Notation cl := (cell F).
Notation e k := (trunc n (Z.lnot k)).

(** What is kept of [v] in the cell of [j], as the device computes it. *)
Definition K (j v : Z) : Z := fst (wr (fun _ => 0) j v) (cl j).
Lemma K_kept j v : kept F n (cl j) v (K j v).
Proof.
  destruct B as [BW _]. destruct (BW (fun _ => 0) j v) as (s & H & E). unfold K. rewrite E. cbn [fst].
  unfold setz. now rewrite Z.eqb_refl.
Qed.
Lemma wr_K d j v : wr d j v = (setz d (cl j) (K j v), IS_OK).
Proof.
  destruct B as [BW _]. destruct (BW d j v) as (s & H & E). rewrite E. now rewrite (kept_fun _ _ _ _ _ _ H (K_kept j v)).
Qed.
Lemma K_cell j j' v : cl j = cl j' -> K j v = K j' v.
Proof. intros E. pose proof (K_kept j v) as H. rewrite E in H. eapply kept_fun; [exact H|apply K_kept]. Qed.

Definition content (j : Z) : Z := if (0 <? j) && (cl (j - 1) =? cl j) then K j (j - 1) else K j (Z.lnot j).
Definition seen (j : Z) : Z := if (j <? size - 1) && (cl (j + 1) =? cl j) then K j (Z.lnot (j + 1)) else content j.

Lemma check_seen d k : d (cl k) = seen k -> (check_elem rd n d k = [] <-> seen k = e k).
Proof.
  intros H. unfold check_elem. destruct B as [_ BR]. rewrite BR. cbn [is_ok]. rewrite H.
  destruct (Z.eqb_spec (seen k) (e k)); [tauto|]. split; [discriminate|tauto].
Qed.
Lemma app_nil_iff {A} (a b : list A) : a ++ b = [] <-> a = [] /\ b = [].
Proof. split; [apply app_eq_nil|]. intros [-> ->]. reflexivity. Qed.

Lemma walk_errs m : forall k d, 0 <= k -> k + Z.of_nat m = size ->
  (0 < k -> d (cl (k - 1)) = content (k - 1)) ->
  (snd (walk_from wr rd n size m k d) = [] <->
   forall j, 0 <= j -> k - 1 <= j < size -> (0 < m)%nat -> seen j = e j).
Proof.
  induction m as [|m IH]; intros k d Hk HS HC; cbn [walk_from].
  - split; [intros _ j _ _ H; lia|reflexivity].
  - unfold walk_step. rewrite wr_K. cbn [is_ok].
    set (d1 := setz d (cl k) (K k (Z.lnot k))).
    destruct (Z.ltb_spec 0 k) as [Pk|Nk].
    + rewrite wr_K. cbn [is_ok]. set (d2 := setz d1 (cl (k - 1)) (K (k - 1) (k - 1))). rewrite app_nil_r.
      assert (C1 : d1 (cl (k - 1)) = seen (k - 1)).
      { unfold seen. replace (k - 1 + 1) with k by lia. assert (LT : (k - 1 <? size - 1) = true) by (apply Z.ltb_lt; lia).
        rewrite LT. cbn [andb]. unfold d1, setz. rewrite Z.eqb_sym. destruct (Z.eqb_spec (cl k) (cl (k - 1))) as [E|E].
        - apply K_cell, E.
        - now apply HC. }
      assert (C2 : d2 (cl k) = content k).
      { unfold content. rewrite (proj2 (Z.ltb_lt 0 k) Pk). cbn [andb]. unfold d2, setz. rewrite Z.eqb_sym.
        destruct (Z.eqb_spec (cl (k - 1)) (cl k)) as [E|E]; [apply K_cell, E|]. unfold d1, setz. now rewrite Z.eqb_refl. }
      specialize (IH (k + 1) d2 ltac:(lia) ltac:(lia)). replace (k + 1 - 1) with k in IH by lia. specialize (IH (fun _ => C2)).
      destruct (walk_from wr rd n size m (k + 1) d2) as [d3 e3]. cbn [snd] in *.
      rewrite !app_nil_iff, IH, (check_seen d1 (k - 1) C1). destruct m as [|m].
      * assert (KS : (k =? size - 1) = true) by (apply Z.eqb_eq; lia). rewrite KS.
        assert (C3 : d2 (cl k) = seen k).
        { rewrite C2. unfold seen. replace (k <? size - 1) with false by (symmetry; apply Z.ltb_ge; lia). reflexivity. }
        rewrite (check_seen d2 k C3). split.
        -- intros [[H1 H2] _] j Hj1 Hj2 _. assert (j = k - 1 \/ j = k) as [-> | ->] by lia; auto.
        -- intros H. split; [split; apply H; lia|]. intros; lia.
      * assert (KS : (k =? size - 1) = false) by (apply Z.eqb_neq; lia). rewrite KS. split.
        -- intros [[H1 _] H2] j Hj1 Hj2 _. destruct (Z.eq_dec j (k - 1)) as [->|N]; [exact H1|]. apply H2; lia.
        -- intros H. split; [split; [apply H; lia|reflexivity]|]. intros j Hj1 Hj2 _. apply H; lia.
    + assert (k = 0) by lia. subst k. cbn [app].
      assert (C2 : d1 (cl 0) = content 0) by (unfold content, d1, setz; cbn [Z.ltb Z.compare andb]; now rewrite Z.eqb_refl).
      specialize (IH (0 + 1) d1 ltac:(lia) ltac:(lia)). replace (0 + 1 - 1) with 0 in IH by lia. specialize (IH (fun _ => C2)).
      destruct (walk_from wr rd n size m (0 + 1) d1) as [d3 e3]. cbn [snd] in *.
      rewrite !app_nil_iff, IH. destruct m as [|m].
      * assert (KS : (0 =? size - 1) = true) by (apply Z.eqb_eq; lia). rewrite KS.
        assert (C3 : d1 (cl 0) = seen 0).
        { rewrite C2. unfold seen. replace (0 <? size - 1) with false by (symmetry; apply Z.ltb_ge; lia). reflexivity. }
        rewrite (check_seen d1 0 C3). split.
        -- intros [H1 _] j Hj1 Hj2 _. assert (j = 0) by lia. now subst.
        -- intros H. split; [apply H; lia|]. intros; lia.
      * assert (KS : (0 =? size - 1) = false) by (apply Z.eqb_neq; lia). rewrite KS. split.
        -- intros [_ H2] j Hj1 Hj2 _. apply H2; lia.
        -- intros H. split; [reflexivity|]. intros j Hj1 Hj2 _. apply H; lia.
Qed.

(** Bit 0 of a cell that does not take the value is stuck. *)
Lemma stuck_bit j v w : Z.testbit (K j v) 0 <> Z.testbit v 0 -> Z.testbit (K j w) 0 = Z.testbit (K j v) 0.
Proof.
  destruct (K_kept j v) as [_ H1]. destruct (K_kept j w) as [_ H2]. specialize (H1 0 ltac:(lia)). specialize (H2 0 ltac:(lia)).
  pose proof (Cons (cl j) 0) as C.
  destruct (Z.testbit (K j v) 0), (Z.testbit v 0), (Z.testbit (K j w) 0); try congruence; intros _; exfalso.
  - destruct (proj1 H1 eq_refl) as [_ [S1|[E _]]]; [|discriminate]. enough (false = true) by discriminate. apply H2. auto.
  - destruct (proj1 H2 eq_refl) as [_ [S1|[_ S0]]].
    + enough (false = true) by discriminate. apply H1. auto.
    + enough (false = true) by discriminate. apply H1. auto.
Qed.
Lemma bit0_lnot j : Z.testbit (Z.lnot (j + 1)) 0 = negb (Z.testbit (Z.lnot j) 0).
Proof. rewrite !Z.lnot_spec, !Z.bit0_odd by lia. rewrite Z.odd_add. cbn. now destruct (Z.odd j). Qed.
Lemma e_bit0 j : Z.testbit (e j) 0 = Z.testbit (Z.lnot j) 0.
Proof. rewrite trunc_bit by lia. rewrite (proj2 (Z.ltb_lt 0 n) Hn). reflexivity. Qed.

Lemma seen_form j : cl (j + 1) = cl j -> exists w, seen (j + 1) = K j w.
Proof.
  intros E. unfold seen, content. destruct (_ && _); [|destruct (_ && _)]; eexists; apply K_cell; assumption.
Qed.
Lemma walk_iff :
  (forall j, 0 <= j -> 0 - 1 <= j < size -> seen j = e j) <->
  (forall k, 0 <= k < size - 1 -> cl k <> cl (k + 1)) /\ (forall k, 0 <= k < size -> K k (Z.lnot k) = e k).
Proof.
  split.
  - intros H.
    assert (NA : forall k, 0 <= k < size - 1 -> cl k <> cl (k + 1)).
    { intros k Hk E. pose proof (H k ltac:(lia) ltac:(lia)) as H1. unfold seen in H1.
      rewrite (proj2 (Z.ltb_lt k (size - 1)) ltac:(lia)), (proj2 (Z.eqb_eq (cl (k + 1)) (cl k)) (eq_sym E)) in H1. cbn [andb] in H1.
      destruct (seen_form k (eq_sym E)) as [w Hw]. pose proof (H (k + 1) ltac:(lia) ltac:(lia)) as H2. rewrite Hw in H2.
      assert (NE : Z.testbit (K k (Z.lnot (k + 1))) 0 <> Z.testbit (Z.lnot (k + 1)) 0).
      { rewrite H1, e_bit0, bit0_lnot. now destruct (Z.testbit (Z.lnot k) 0). }
      pose proof (stuck_bit k _ w NE) as ST. rewrite H1, H2, !e_bit0, bit0_lnot in ST.
      now destruct (Z.testbit (Z.lnot k) 0). }
    split; [exact NA|]. intros k Hk. pose proof (H k ltac:(lia) ltac:(lia)) as H1. unfold seen, content in H1.
    destruct (Z.ltb_spec k (size - 1)) as [L|L]; cbn [andb] in H1.
    + rewrite (proj2 (Z.eqb_neq (cl (k + 1)) (cl k)) (fun E => NA k ltac:(lia) (eq_sym E))) in H1.
      destruct (Z.ltb_spec 0 k) as [L0|L0]; cbn [andb] in H1; [|exact H1].
      rewrite (proj2 (Z.eqb_neq (cl (k - 1)) (cl k))) in H1; [exact H1|].
      intros E. apply (NA (k - 1)); [lia|]. now replace (k - 1 + 1) with k by lia.
    + destruct (Z.ltb_spec 0 k) as [L0|L0]; cbn [andb] in H1; [|exact H1].
      rewrite (proj2 (Z.eqb_neq (cl (k - 1)) (cl k))) in H1; [exact H1|].
      intros E. apply (NA (k - 1)); [lia|]. now replace (k - 1 + 1) with k by lia.
  - intros [NA HK] j Hj0 Hj. unfold seen, content.
    destruct (Z.ltb_spec j (size - 1)) as [L|L]; cbn [andb].
    + rewrite (proj2 (Z.eqb_neq (cl (j + 1)) (cl j)) (fun E => NA j ltac:(lia) (eq_sym E))).
      destruct (Z.ltb_spec 0 j) as [L0|L0]; cbn [andb]; [|apply HK; lia].
      rewrite (proj2 (Z.eqb_neq (cl (j - 1)) (cl j))); [apply HK; lia|].
      intros E. apply (NA (j - 1)); [lia|]. now replace (j - 1 + 1) with j by lia.
    + destruct (Z.ltb_spec 0 j) as [L0|L0]; cbn [andb]; [|apply HK; lia].
      rewrite (proj2 (Z.eqb_neq (cl (j - 1)) (cl j))); [apply HK; lia|].
      intros E. apply (NA (j - 1)); [lia|]. now replace (j - 1 + 1) with j by lia.
Qed.
Lemma K_complement k : 0 <= k ->
  (K k (Z.lnot k) = e k <->
   forall i, 0 <= i < n -> (stuck0 F (cl k) i -> Z.testbit k i = true) /\ (stuck1 F (cl k) i -> Z.testbit k i = false)).
Proof.
  intros Hk. destruct (K_kept k (Z.lnot k)) as [HS HB]. rewrite (bits_trunc n (Z.lnot k) _ ltac:(lia) HS). split.
  - intros H i Hi. specialize (H i ltac:(lia)). specialize (HB i ltac:(lia)). rewrite Z.lnot_spec in * by lia.
    destruct (Z.testbit k i); cbn [negb] in *; split; intros S; try reflexivity; exfalso.
    + assert (X : i < n /\ false = true) by (apply H, HB; split; [lia|auto]). destruct X; discriminate.
    + assert (X : i < n /\ true = true) by (split; [lia|reflexivity]). apply H, HB in X. destruct X as [_ [S1|[_ S0]]]; [|tauto].
      exact (Cons _ _ (conj S S1)).
  - intros H i Hi. rewrite (HB i Hi). split.
    + intros [L [S1|[T _]]]; [|auto]. split; [exact L|]. rewrite Z.lnot_spec by lia. now rewrite (proj2 (H i ltac:(lia)) S1).
    + intros [L T]. split; [exact L|]. right. split; [exact T|]. intros S0. rewrite Z.lnot_spec in T by lia.
      now rewrite (proj1 (H i ltac:(lia)) S0) in T.
Qed.
End Walk.

(** ** Two devices that answer alike *)
Section Sim.
Context {D E : Type} (wr1 : D -> Z -> Z -> D * status) (rd1 : D -> Z -> Z * status)
  (wr2 : E -> Z -> Z -> E * status) (rd2 : E -> Z -> Z * status) (n size : Z) (R : D -> E -> Prop).
Context (HW : forall d x k v, R d x -> 0 <= k < size -> snd (wr1 d k v) = snd (wr2 x k v) /\ R (fst (wr1 d k v)) (fst (wr2 x k v))).
Context (HR : forall d x k, R d x -> 0 <= k < size -> rd1 d k = rd2 x k).
Lemma check_sim d x k : R d x -> 0 <= k < size -> check_elem rd1 n d k = check_elem rd2 n x k.
Proof. intros H Hk. unfold check_elem. now rewrite (HR d x k H Hk). Qed.
Lemma walk_sim m : forall k d x, R d x -> 0 <= k -> k + Z.of_nat m = size ->
  snd (walk_from wr1 rd1 n size m k d) = snd (walk_from wr2 rd2 n size m k x) /\
  R (fst (walk_from wr1 rd1 n size m k d)) (fst (walk_from wr2 rd2 n size m k x)).
Proof.
  induction m as [|m IH]; intros k d x H Hk HS; cbn [walk_from]; [auto|]. unfold walk_step.
  destruct (HW d x k (Z.lnot k) H ltac:(lia)) as [E1 R1].
  destruct (wr1 d k (Z.lnot k)) as [d1 s1], (wr2 x k (Z.lnot k)) as [x1 t1]. cbn [fst snd] in *. subst t1.
  destruct s1; cbn [is_ok]; [|auto]. destruct (Z.ltb_spec 0 k) as [P|P].
  - destruct (HW d1 x1 (k - 1) (k - 1) R1 ltac:(lia)) as [E2 R2]. rewrite (check_sim d1 x1 (k - 1) R1 ltac:(lia)).
    destruct (wr1 d1 (k - 1) (k - 1)) as [d2 s2], (wr2 x1 (k - 1) (k - 1)) as [x2 t2]. cbn [fst snd] in *. subst t2.
    rewrite (check_sim d2 x2 k R2 ltac:(lia)). destruct (IH (k + 1) d2 x2 R2 ltac:(lia) ltac:(lia)) as [I1 I2].
    destruct (walk_from wr1 rd1 n size m (k + 1) d2), (walk_from wr2 rd2 n size m (k + 1) x2). cbn [fst snd] in *. subst. auto.
  - rewrite (check_sim d1 x1 k R1 ltac:(lia)). destruct (IH (k + 1) d1 x1 R1 ltac:(lia) ltac:(lia)) as [I1 I2].
    destruct (walk_from wr1 rd1 n size m (k + 1) d1), (walk_from wr2 rd2 n size m (k + 1) x1). cbn [fst snd] in *. subst. auto.
Qed.
End Sim.

(** ** The ideal memory *)
Definition ideal_wr (n : Z) (d : Z -> Z) (k v : Z) : (Z -> Z) * status := (setz d k (trunc n v), IS_OK).
Definition ideal_rd (d : Z -> Z) (k : Z) : Z * status := (d k, IS_OK).
Definition no_faults : faults := Faults (fun k => k) (fun _ _ => False) (fun _ _ => False).
Lemma ideal_behaves n : 0 <= n -> behaves no_faults n (ideal_wr n) ideal_rd.
Proof.
  intros Hn. split; [|reflexivity]. intros d k v. exists (trunc n v). split; [|reflexivity].
  split; [now apply trunc_range|]. intros i Hi. cbn [no_faults stuck0 stuck1]. rewrite trunc_bit by lia.
  rewrite andb_true_iff, Z.ltb_lt. tauto.
Qed.
Lemma ideal_final n size m : forall k d, 0 <= k -> k + Z.of_nat m = size -> (0 < m)%nat ->
  forall j, fst (walk_from (ideal_wr n) ideal_rd n size m k d) j =
    if (j =? size - 1) then trunc n (Z.lnot j)
    else if (k - 1 <=? j) && (0 <=? j) && (j <? size) then trunc n j else d j.
Proof.
  induction m as [|m IH]; intros k d Hk HS Hm j; [lia|]. cbn [walk_from]. unfold walk_step. cbn [ideal_wr is_ok].
  set (P := if 0 <? k then _ else _).
  assert (EP : fst P = if 0 <? k then setz (setz d k (trunc n (Z.lnot k))) (k - 1) (trunc n (k - 1)) else setz d k (trunc n (Z.lnot k))).
  { subst P. destruct (0 <? k); reflexivity. }
  destruct P as [d2 e2]. cbn [fst] in EP.
  assert (FST : forall (x : (Z -> Z) * list werr) (e : list werr), fst (let '(a, b) := x in (a, e ++ b)) = fst x) by (intros [a b] e; reflexivity).
  rewrite FST. destruct m as [|m].
  - cbn [walk_from fst]. rewrite EP. unfold setz. destruct (Z.ltb_spec 0 k), (Z.eqb_spec j (k - 1)), (Z.eqb_spec j k), (Z.eqb_spec j (size - 1)), (Z.leb_spec (k - 1) j), (Z.leb_spec 0 j), (Z.ltb_spec j size); cbn [andb]; try lia; subst; try reflexivity; f_equal; f_equal; lia.
  - rewrite (IH (k + 1) d2) by lia. rewrite EP. unfold setz.
    destruct (Z.ltb_spec 0 k), (Z.eqb_spec j (k - 1)), (Z.eqb_spec j k), (Z.eqb_spec j (size - 1)), (Z.leb_spec (k - 1) j), (Z.leb_spec (k + 1 - 1) j), (Z.leb_spec 0 j), (Z.ltb_spec j size); cbn [andb]; try lia; subst; try reflexivity; f_equal; f_equal; lia.
Qed.

(** ** The memory behind a map *)
Lemma read_loop_ext ok d d' bw : forall ops st v, (forall a cb, In (a, cb) ops -> d a = d' a) ->
  read_loop ok d bw st v ops = read_loop ok d' bw st v ops.
Proof.
  induction ops as [|[a cb] ops IH]; intros st v H; cbn [read_loop]; [reflexivity|].
  destruct (ok a); [|reflexivity]. rewrite (H a cb (or_introl eq_refl)).
  rewrite IH by (intros b c I; apply (H b c); now right). reflexivity.
Qed.
Lemma holds_trunc d bw v A : 0 < bw -> holds d bw v A -> holds d bw (trunc (8 * bw * Z.of_nat (length A)) v) A.
Proof.
  intros Hbw H j a Hj. rewrite (H j a Hj). apply Z.bits_inj'. intros i Hi.
  assert (Hl : (j < length A)%nat) by (apply nth_error_Some; congruence).
  rewrite mask_ones, !Z.land_spec, !Z.shiftr_spec by lia. rewrite Z.testbit_ones_nonneg by lia.
  destruct (Z.ltb_spec i (bw * 8)); [|now rewrite !andb_false_r]. rewrite trunc_bit by nia.
  replace (i + Z.of_nat j * bw * 8 <? 8 * bw * Z.of_nat (length A)) with true; [reflexivity|].
  symmetry. apply Z.ltb_lt. nia.
Qed.

(** ** The access test *)
Lemma access_errs {D} (wr : D -> Z -> Z -> D * status) rd pk po n mode (P : Z -> Z -> Prop) :
  (forall d k v, exists d' e, access_step wr rd pk po n mode d k v = (d', e, false) /\ (e = [] <-> P k v)) ->
  forall draws k d, snd (access_from wr rd pk po n mode k draws d) = [] <->
    forall j v, nth_error draws j = Some v -> P (k + Z.of_nat j) v.
Proof.
  intros HS. induction draws as [|v vs IH]; intros k d; cbn [access_from].
  - split; [intros _ [|j] w; discriminate|reflexivity].
  - destruct (HS d k v) as (d1 & e1 & -> & HP). specialize (IH (k + 1) d1).
    destruct (access_from wr rd pk po n mode (k + 1) vs d1) as [d2 e2]. cbn [snd] in *. rewrite app_nil_iff, IH, HP. split.
    + intros [H1 H2] [|j] w E; cbn [nth_error] in E; [injection E as <-; now replace (k + Z.of_nat 0) with k by lia|].
      replace (k + Z.of_nat (S j)) with (k + 1 + Z.of_nat j) by lia. now apply H2.
    + intros H. split; [replace k with (k + Z.of_nat 0) by lia; now apply H|].
      intros j w E. replace (k + 1 + Z.of_nat j) with (k + Z.of_nat (S j)) by lia. now apply H.
Qed.
Lemma kept_range F n c v s : 0 <= n -> kept F n c v s -> trunc n s = s.
Proof.
  intros Hn [Hs H]. symmetry. apply bits_trunc; [exact Hn|exact Hs|]. intros i Hi. specialize (H i Hi). tauto.
Qed.
(** A cell keeps [v] and its complement only if none of its bits is stuck. *)
Lemma kept_both F n c v s s' : 0 <= n -> consistent F -> kept F n c v s -> kept F n c (trunc n (Z.lnot v)) s' ->
  ((s = v /\ s' = trunc n (Z.lnot v)) <->
   0 <= v < 2 ^ n /\ forall i, 0 <= i < n -> ~ stuck0 F c i /\ ~ stuck1 F c i).
Proof.
  intros Hn C K1 K2. pose proof (kept_range F n c v s Hn K1) as R1. destruct K1 as [S1 B1], K2 as [S2 B2]. split.
  - intros [-> ->]. split; [now apply trunc_id|]. intros i Hi. specialize (B1 i ltac:(lia)). specialize (B2 i ltac:(lia)).
    rewrite trunc_bit in B2 by lia. rewrite (proj2 (Z.ltb_lt i n)) in B2 by lia. cbn [andb] in B2.
    rewrite Z.lnot_spec in B2 by lia. pose proof (C c i) as NC. destruct (Z.testbit v i); cbn [negb] in B2.
    + assert (N1 : ~ stuck1 F c i) by (intros X; enough (false = true) by discriminate; apply B2; split; [lia|auto]).
      split; [|exact N1]. destruct (proj1 B1 eq_refl) as [_ [X|[_ X]]]; [contradiction|exact X].
    + assert (N1 : ~ stuck1 F c i) by (intros X; enough (false = true) by discriminate; apply B1; split; [lia|auto]).
      split; [|exact N1]. destruct (proj1 B2 eq_refl) as [_ [X|[_ X]]]; [contradiction|exact X].
  - intros [HV HN]. split.
    + rewrite <- (proj2 (trunc_id n v Hn) HV). apply bits_trunc; [exact Hn|exact S1|]. intros i Hi. rewrite (B1 i Hi).
      split; [intros [L [X|[T _]]]; [exfalso; destruct (HN i ltac:(lia)); tauto|auto]|].
      intros [L T]. split; [exact L|]. right. split; [exact T|]. apply HN. lia.
    + apply bits_trunc; [exact Hn|exact S2|]. intros i Hi. rewrite (B2 i Hi), trunc_bit by lia.
      rewrite andb_true_iff, Z.ltb_lt.
      split; [intros [L [X|[T _]]]; [exfalso; destruct (HN i ltac:(lia)); tauto|tauto]|].
      intros [L T]. split; [exact L|]. right. split; [tauto|]. apply HN. lia.
Qed.
Lemma lnot_differs n v : 0 < n -> trunc n (Z.lnot v) <> trunc n v.
Proof.
  intros Hn E. apply (f_equal (fun z => Z.testbit z 0)) in E. rewrite !trunc_bit in E by lia.
  rewrite (proj2 (Z.ltb_lt 0 n) Hn), Z.lnot_spec in E by lia. cbn [andb] in E. now destruct (Z.testbit v 0).
Qed.

(** ** Overlaps *)
Lemma overlap_meets a b : fst a <= snd a -> fst b <= snd b -> (overlap_test a b = true <-> meets a b).
Proof.
  destruct a as [a1 a2], b as [b1 b2]. unfold meets. cbn [fst snd overlap_test]. intros Ha Hb.
  rewrite !orb_true_iff, !andb_true_iff, !Z.leb_le. split.
  - intros [[[H1 H2]|[H1 H2]]|[H1 H2]]; [exists b2|exists b1|exists a1]; lia.
  - intros (x & H1 & H2). lia.
Qed.
Lemma apart_snoc l a : apart (l ++ [a]) <-> apart l /\ forall b, In b l -> ~ meets a b.
Proof.
  induction l as [|c l IH]; cbn [app apart].
  - split; [intros _; split; [exact I|intros b []]|]. intros _. split; [intros b []|exact I].
  - rewrite IH. split.
    + intros (H1 & H2 & H3). split; [split; [|exact H2]; intros b I; apply H1, in_or_app; auto|].
      intros b [<-|I]; [|now apply H3]. intros (x & X1 & X2). apply (H1 a); [apply in_or_app; right; now left|]. now exists x.
    + intros ((H1 & H2) & H3). split; [|split; [exact H2|]; intros b I; apply H3; now right].
      intros b I. apply in_app_or in I. destruct I as [I|[<-|[]]]; [now apply H1|].
      intros (x & X1 & X2). apply (H3 c (or_introl eq_refl)). now exists x.
Qed.
Lemma enter_apart : forall l done, Forall (fun a => fst a <= snd a) (done ++ l) -> apart done ->
  (enter_mems done l = Some (done ++ l) <-> apart (done ++ l)) /\ (enter_mems done l = None <-> ~ apart (done ++ l)).
Proof.
  induction l as [|m l IH]; intros done HF HD; cbn [enter_mems].
  - rewrite app_nil_r. split; split; auto; [discriminate|contradiction].
  - assert (FM : fst m <= snd m /\ Forall (fun a => fst a <= snd a) done).
    { rewrite Forall_app in HF. destruct HF as [H1 H2]. inversion H2. auto. }
    destruct FM as [Fm Fd]. replace (done ++ m :: l) with ((done ++ [m]) ++ l) in * by now rewrite <- app_assoc.
    destruct (existsb (overlap_test m) done) eqn:E.
    + assert (NA : ~ apart ((done ++ [m]) ++ l)).
      { intros HA. apply existsb_exists in E. destruct E as (b & Ib & Tb).
        assert (HB : fst b <= snd b) by (rewrite Forall_forall in Fd; auto). apply overlap_meets in Tb; [|auto|auto].
        assert (HX : apart (done ++ [m])).
        { clear -HA. induction (done ++ [m]) as [|c l0 IH]; cbn [app apart] in *; [exact I|]. destruct HA as [H1 H2].
          split; [|now apply IH]. intros b I. apply H1, in_or_app. now left. }
        apply apart_snoc in HX. destruct HX as [_ HX]. exact (HX b Ib Tb). }
      split; split; auto; [discriminate|contradiction].
    + apply IH; [exact HF|]. apply apart_snoc. split; [exact HD|]. intros b Ib Mb.
      assert (HB : fst b <= snd b) by (rewrite Forall_forall in Fd; auto).
      enough (existsb (overlap_test m) done = true) by congruence. apply existsb_exists. exists b. split; [exact Ib|].
      now apply overlap_meets.
Qed.
