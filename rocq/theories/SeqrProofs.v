From Coq Require Import ZArith List Bool Arith Lia.
From Verif Require Import Prelude SeqrModel SeqrSpec.
Import ListNotations.
Local Open Scope nat_scope.

Ltac sq := cbn [arbq locks completed waiting next_rid next_sid sid reg sem arb fifo requested
  called done_sid ev iwait respq depth handler getters set_arbq set_locks set_completed set_waiting
  set_ids set_sem set_arb set_fifo set_flags set_wait set_resp set_value fst snd] in *.

(** ** Arbitration as a transition system on the queue only *)
Record acore := AC { aq : list req; ac : list nat; aw : list (nat * nat); an : nat }.
Definition core (y : sqr) : acore := AC (arbq y) (completed y) (waiting y) (next_rid y).

Definition is_arb (o : out) : bool :=
  match o with
  | ORequested _ _ | OLockRequested _ _ | OSelected _ _ | OGranted _ _ | ORemoved _ => true
  | _ => false
  end.
Definition ae (tr : list out) : list out := filter is_arb tr.

Inductive astep : acore -> list out -> acore -> Prop :=
| A_same a k : astep a [] (AC (aq a) (ac a) (aw a) (an a + k))
| A_req a s i :
    astep a [ORequested (an a) s]
      (AC (aq a ++ [Req (an a) KReq s i]) (ac a) (aw a ++ [(an a, s)]) (S (an a)))
| A_lreq a s i :
    astep a [OLockRequested (an a) s; ORequested (S (an a)) s]
      (AC ((aq a ++ [Req (an a) KLock s i]) ++ [Req (S (an a)) KReq s i]) (ac a)
          (aw a ++ [(S (an a), s)]) (S (S (an a))))
| A_grant a r s : In (r, s) (aw a) -> In r (ac a) ->
    astep a [OGranted r s]
      (AC (aq a) (filter (fun x => negb (Nat.eqb x r)) (ac a))
          (filter (fun p => negb (Nat.eqb (fst p) r)) (aw a)) (an a))
| A_sel a i r : nth_error (aq a) i = Some r -> r_kind r = KReq ->
    astep a [OSelected (r_id r) (r_seq r)]
      (AC (remove_nth i (aq a)) (r_id r :: ac a) (aw a) (an a))
| A_rem a (P : req -> bool) :
    astep a (map (fun r => ORemoved (r_id r)) (filter P (aq a)))
      (AC (filter (fun r => negb (P r)) (aq a)) (ac a) (aw a) (an a)).

Lemma astep_same y y' : core y' = core y -> astep (core y) [] (core y').
Proof.
  intros E. rewrite E. pose proof (A_same (core y) 0) as H.
  unfold core in *. cbn [aq ac aw an] in H. now rewrite Nat.add_0_r in H.
Qed.

Lemma avail_nth anc y rel q i k : In k (avail anc y rel i q) ->
  i <= k /\ exists r, nth_error q (k - i) = Some r /\ r_kind r = KReq
    /\ is_blocked anc y (r_seq r) = false /\ rel (r_seq r) = true.
Proof.
  revert i. induction q as [|r q IH]; intros i H; cbn [avail] in H; [destruct H|].
  assert (HR : In k (avail anc y rel (S i) q) -> i <= k /\ exists r0, nth_error (r :: q) (k - i) = Some r0
     /\ r_kind r0 = KReq /\ is_blocked anc y (r_seq r0) = false /\ rel (r_seq r0) = true).
  { intros H0. apply IH in H0 as [H1 (r0 & H2 & H3)]. split; [lia|]. exists r0.
    replace (k - i) with (S (k - S i)) by lia. auto. }
  destruct (r_kind r) eqn:K; [|auto].
  destruct (negb (is_blocked anc y (r_seq r)) && rel (r_seq r)) eqn:E; [|auto].
  destruct H as [->|H]; [|auto]. split; [lia|]. exists r. rewrite Nat.sub_diag.
  apply andb_true_iff in E as [E1 E2]. rewrite negb_true_iff in E1. auto.
Qed.

(** Everything before the first available position is not available. *)
Lemma avail_first anc y rel q i k l : avail anc y rel i q = k :: l ->
  forall r, In r (firstn (k - i) q) ->
    r_kind r = KLock \/ is_blocked anc y (r_seq r) = true \/ rel (r_seq r) = false.
Proof.
  revert i. induction q as [|r q IH]; intros i H r0 Hin; cbn [avail] in H; [discriminate|].
  assert (HR : avail anc y rel (S i) q = k :: l -> i < k).
  { intros H0. assert (In k (avail anc y rel (S i) q)) by (rewrite H0; now left).
    apply avail_nth in H1 as [H1 _]. lia. }
  destruct (r_kind r) eqn:K.
  - destruct (negb (is_blocked anc y (r_seq r)) && rel (r_seq r)) eqn:E.
    + injection H as <- _. rewrite Nat.sub_diag in Hin. destruct Hin.
    + specialize (HR H). replace (k - i) with (S (k - S i)) in Hin by lia.
      cbn [firstn] in Hin. destruct Hin as [<-|Hin]; [|now apply (IH (S i))].
      apply andb_false_iff in E as [E|E]; [|auto]. rewrite negb_false_iff in E. auto.
  - specialize (HR H). replace (k - i) with (S (k - S i)) in Hin by lia.
    cbn [firstn] in Hin. destruct Hin as [<-|Hin]; [auto|now apply (IH (S i))].
Qed.

Lemma choose_avail anc y rel rnd i : choose anc y rel rnd = CSome i ->
  In i (avail anc y rel 0 (arbq y)).
Proof.
  unfold choose. destruct (lock_first y); [discriminate|].
  destruct (avail anc y rel 0 (arbq y)) as [|j l] eqn:E; [discriminate|].
  destruct (Nat.eqb (arb y) 0); [intros [= <-]; now left|].
  destruct l as [|j2 l]; [intros [= <-]; now left|].
  destruct (Nat.eqb (arb y) 2); [|discriminate].
  destruct (nth_error (j :: j2 :: l) rnd) eqn:E2; [|discriminate].
  intros [= <-]. eapply nth_error_In; eauto.
Qed.

Lemma choose_nth anc y rel rnd i : choose anc y rel rnd = CSome i ->
  exists r, nth_error (arbq y) i = Some r /\ r_kind r = KReq
    /\ is_blocked anc y (r_seq r) = false /\ rel (r_seq r) = true.
Proof.
  intros H. apply choose_avail, avail_nth in H as [_ (r & H & H2)].
  rewrite Nat.sub_0_r in H. eauto.
Qed.

Lemma ae_app t1 t2 : ae (t1 ++ t2) = ae t1 ++ ae t2.
Proof. apply filter_app. Qed.

Lemma try_select_arb anc y rel rnd : let '(y1, o, _) := try_select anc y rel rnd in
  astep (core y) (ae o) (core y1).
Proof.
  unfold try_select. destruct (choose anc y rel rnd) as [|i| |] eqn:E; try now apply astep_same.
  apply choose_nth in E as (r & E & K & _). unfold select. rewrite E.
  apply (A_sel (core y) i r); auto.
Qed.

Lemma put_base_same y s x : core (fst (put_base y s x)) = core y /\ ae (snd (put_base y s x)) = [].
Proof. unfold put_base. destruct (_ || _); sq; auto. Qed.
Lemma put_response_same y x : core (fst (put_response y x)) = core y /\ ae (snd (put_response y x)) = [].
Proof.
  unfold put_response. destruct (Z.eqb _ _); [auto|]. destruct (reg y (i_sid x)) as [s|]; [|auto].
  destruct (handler y s); [auto|]. apply put_base_same.
Qed.
Lemma item_done_same y r : core (fst (item_done y r)) = core y /\ ae (snd (item_done y r)) = [].
Proof.
  unfold item_done. change (fifo (set_flags y false false)) with (fifo y).
  destruct (fifo y) as [|x f]; [auto|].
  match goal with |- context[set_wait ?a ?b ?c ?d] => set (y1 := set_wait a b c d) end.
  change (core y) with (core y1). clearbody y1. destruct r as [t|].
  - pose proof (put_response_same y1 t) as [H1 H2]. destruct (put_response y1 t) as [y2 o]. sq.
    destruct (existsb _ o); sq; (split; [auto|]); cbn [ae filter is_arb]; [auto|].
    change (filter is_arb) with ae. rewrite ae_app, H2. now destruct (lock_first y2).
  - sq. split; [auto|]. cbn [existsb app]. now destruct (lock_first y1).
Qed.
Lemma get_scan_same y p s t : core (fst (get_scan y p s t)) = core y /\ ae (snd (get_scan y p s t)) = [].
Proof.
  unfold get_scan. destruct (Z.eqb _ _).
  - destruct (respq y s); auto.
  - destruct (take_tid _ _) as [[? ?]|]; auto.
Qed.
Lemma register_core y s : core (register y s) = core y.
Proof. unfold register. now destruct (Z.gtb _ _). Qed.

Lemma same_ae y y' o : core y' = core y /\ ae o = [] -> astep (core y) (ae o) (core y').
Proof. intros [H1 H2]. rewrite H2. now apply astep_same. Qed.

Lemma in_existsb_nat r l : existsb (Nat.eqb r) l = true <-> In r l.
Proof.
  rewrite existsb_exists. split.
  - intros (x & H & E). apply Nat.eqb_eq in E. now subst.
  - intros H. exists r. now rewrite Nat.eqb_refl.
Qed.

Lemma step_arb anc y l : astep (core y) (ae (snd (step anc y l))) (core (fst (step anc y l))).
Proof.
  destruct l as [s|s lk|r|s t p|s|s| |s|a|k|rel rnd|rel rnd| | |rel rnd|rsp|x|p s t|p|s d|s b];
    cbn [step].
  - unfold start. apply same_ae. split; [|auto]. sq. rewrite register_core. auto.
  - unfold request. pose proof (register_core y s) as Hc. set (y1 := register y s) in *.
    rewrite <- Hc. destruct lk; sq.
    + apply (A_lreq (core y1) s (sid y1 s)).
    + apply (A_req (core y1) s (sid y1 s)).
  - unfold granted. destruct (find _ (waiting y)) as [[r' s]|] eqn:F; [|now apply astep_same].
    apply find_some in F as [F1 F2]. cbn [fst] in F2. apply Nat.eqb_eq in F2. subst r'.
    destruct (existsb _ _) eqn:E; [|now apply astep_same].
    apply in_existsb_nat in E. apply (A_grant (core y) r s); auto.
  - unfold send_request. destruct (Z.ltb _ _); [now apply astep_same|]. sq.
    destruct (fifo y); [|now apply astep_same]. apply same_ae. split; [auto|].
    cbn [ae filter is_arb]. now destruct (lock_first _).
  - now apply astep_same.
  - destruct (iwait y s) as [[]|]; try now apply astep_same.
    destruct (Z.eqb _ _); now apply astep_same.
  - now apply astep_same.
  - unfold remove_seq.
    replace (ae _) with (snd (remove_seq anc y s)).
    2:{ unfold remove_seq. cbn [snd]. induction (filter (gone anc y s) (arbq y)); cbn; [auto|]. now f_equal. }
    pose proof (A_rem (core y) (gone anc y s)) as H.
    unfold remove_seq. sq. cbn [core aq ac aw an] in H.
    destruct (filter (gone anc y s) (arbq y)) eqn:E1, (filter _ (locks y)) eqn:E2; exact H.
  - now apply astep_same.
  - apply A_same.
  - destruct (requested y).
    + apply same_ae. split; [auto|]. sq. now destruct (called y).
    + pose proof (try_select_arb anc y rel rnd) as H. destruct (try_select anc y rel rnd) as [[y1 o] go]. sq.
      rewrite ae_app. replace (ae (if called y then _ else _)) with (@nil out) by now destruct (called y).
      destruct go; exact H.
  - destruct (requested y); [now apply astep_same|].
    pose proof (try_select_arb anc y rel rnd) as H. destruct (try_select anc y rel rnd) as [[y1 o] go]. sq.
    destruct go; exact H.
  - destruct (requested y); [|now apply astep_same]. destruct (fifo y); now apply astep_same.
  - destruct (requested y); [|now apply astep_same]. destruct (fifo y); [now apply astep_same|].
    pose proof (item_done_same y None) as H. destruct (item_done y None) as [y1 o]. sq. now apply same_ae.
  - destruct (called y); [now apply astep_same|].
    pose proof (try_select_arb anc y rel rnd) as H. unfold try_select in H.
    destruct (choose anc y rel rnd) as [|i| |]; try now apply astep_same.
    destruct (select y i) as [y1 o]. exact H.
  - apply same_ae, item_done_same.
  - apply same_ae, put_response_same.
  - unfold get_call. destruct (respq y s) eqn:E; [now apply astep_same|].
    apply same_ae, get_scan_same.
  - unfold get_wake. destruct (getters y p) as [g|]; [|now apply astep_same].
    destruct (g_size g).
    + destruct (Nat.eqb _ _); [now apply astep_same|]. apply same_ae, get_scan_same.
    + destruct (respq y (g_seq g)); [now apply astep_same|]. apply same_ae, get_scan_same.
  - now apply astep_same.
  - now apply astep_same.
Qed.

(** ** Lists *)
Definition reqs (q : list req) : list (nat * nat) :=
  map (fun r => (r_id r, r_seq r)) (filter (fun r => match r_kind r with KReq => true | KLock => false end) q).

Lemma reqs_app a b : reqs (a ++ b) = reqs a ++ reqs b.
Proof. unfold reqs. now rewrite filter_app, map_app. Qed.

Lemma remove_nth_split {A} i (l : list A) a : nth_error l i = Some a ->
  exists l1 l2, l = l1 ++ a :: l2 /\ remove_nth i l = l1 ++ l2 /\ length l1 = i.
Proof.
  revert i. induction l as [|b l IH]; intros [|i] H; try discriminate.
  - injection H as ->. exists [], l. auto.
  - apply IH in H as (l1 & l2 & -> & H2 & H3). exists (b :: l1), l2. cbn. rewrite H2, H3. auto.
Qed.

Lemma filter_id {A} (f : A -> bool) l : (forall x, In x l -> f x = true) -> filter f l = l.
Proof.
  induction l as [|a l IH]; intros H; cbn; [auto|]. rewrite H by now left. f_equal. apply IH.
  intros; apply H. now right.
Qed.

Lemma reqs_in r s q : In (r, s) (reqs q) -> In r (map r_id q).
Proof.
  unfold reqs. rewrite !in_map_iff. intros (x & E & H). injection E as <- _.
  apply filter_In in H as [H _]. eauto.
Qed.

Lemma filter_notin r q : ~ In r (map r_id q) ->
  filter (fun x : nat * nat => negb (Nat.eqb (fst x) r)) (reqs q) = reqs q.
Proof.
  intros H. apply filter_id. intros [r' s] Hin. cbn [fst]. apply negb_true_iff, Nat.eqb_neq.
  intros ->. apply H. eapply reqs_in; eauto.
Qed.

Lemma pend_fold_in p o r s : In (r, s) (pend p o) -> In (r, s) p \/ o = ORequested r s.
Proof.
  destruct o; cbn [pend]; try (now left).
  - rewrite in_app_iff. intros [H|[H|[]]]; [auto|]. injection H as -> ->. auto.
  - rewrite filter_In. tauto.
  - rewrite filter_In. tauto.
Qed.

Lemma pendings_app t1 t2 : pendings (t1 ++ t2) = fold_left pend t2 (pendings t1).
Proof. apply fold_left_app. Qed.
Lemma pend_ae t p : fold_left pend (ae t) p = fold_left pend t p.
Proof.
  revert p. induction t as [|o t IH]; intros p; cbn; [auto|].
  destruct o; cbn [is_arb fold_left pend]; apply IH.
Qed.

Lemma requests_app a b : requests (a ++ b) = requests a ++ requests b.
Proof. induction a as [|o a IH]; cbn; [auto|]. destruct o; cbn; now rewrite ?IH. Qed.
Lemma selections_app a b : selections (a ++ b) = selections a ++ selections b.
Proof. induction a as [|o a IH]; cbn; [auto|]. destruct o; cbn; now rewrite ?IH. Qed.
Lemma grants_app a b : grants (a ++ b) = grants a ++ grants b.
Proof. induction a as [|o a IH]; cbn; [auto|]. destruct o; cbn; now rewrite ?IH. Qed.
Lemma withdrawals_app a b : withdrawals (a ++ b) = withdrawals a ++ withdrawals b.
Proof. induction a as [|o a IH]; cbn; [auto|]. destruct o; cbn; now rewrite ?IH. Qed.
Lemma requests_ae t : requests (ae t) = requests t.
Proof. unfold ae. induction t as [|o t IH]; cbn; [auto|]. destruct o; cbn; now rewrite ?IH. Qed.
Lemma selections_ae t : selections (ae t) = selections t.
Proof. unfold ae. induction t as [|o t IH]; cbn; [auto|]. destruct o; cbn; now rewrite ?IH. Qed.
Lemma grants_ae t : grants (ae t) = grants t.
Proof. unfold ae. induction t as [|o t IH]; cbn; [auto|]. destruct o; cbn; now rewrite ?IH. Qed.
Lemma withdrawals_ae t : withdrawals (ae t) = withdrawals t.
Proof. unfold ae. induction t as [|o t IH]; cbn; [auto|]. destruct o; cbn; now rewrite ?IH. Qed.

Lemma removed_events q : requests (map (fun r => ORemoved (r_id r)) q) = []
  /\ selections (map (fun r => ORemoved (r_id r)) q) = []
  /\ grants (map (fun r => ORemoved (r_id r)) q) = []
  /\ withdrawals (map (fun r => ORemoved (r_id r)) q) = map r_id q.
Proof. induction q as [|r q (H1 & H2 & H3 & H4)]; cbn; auto. now rewrite H1, H2, H3, H4. Qed.

(** Withdrawing a list of requests filters them out. *)
Lemma pend_removed l p : fold_left pend (map (fun r => ORemoved (r_id r)) l) p
  = filter (fun x => negb (existsb (fun r => Nat.eqb (fst x) (r_id r)) l)) p.
Proof.
  revert p. induction l as [|r l IH]; intros p; cbn [map fold_left pend existsb].
  - cbn. symmetry. now apply filter_id.
  - rewrite IH. clear. induction p as [|x p IH]; cbn; [auto|].
    destruct (Nat.eqb (fst x) (r_id r)); cbn; [auto|].
    destruct (existsb _ l); cbn; now rewrite IH.
Qed.

Lemma reqs_filter (P : req -> bool) q : NoDup (map r_id q) ->
  filter (fun x => negb (existsb (fun r => Nat.eqb (fst x) (r_id r)) (filter P q))) (reqs q)
  = reqs (filter (fun r => negb (P r)) q).
Proof.
  intros ND.
  assert (G : forall q1, incl q1 q ->
    filter (fun x => negb (existsb (fun r => Nat.eqb (fst x) (r_id r)) (filter P q))) (reqs q1)
    = reqs (filter (fun r => negb (P r)) q1)).
  { induction q1 as [|r q1 IH]; intros Hi; [auto|].
    assert (Hin : In r q) by (apply Hi; now left).
    assert (Hx : existsb (fun r0 => Nat.eqb (r_id r) (r_id r0)) (filter P q) = P r).
    { destruct (P r) eqn:E.
      - apply existsb_exists. exists r. rewrite filter_In, Nat.eqb_refl. auto.
      - destruct (existsb _ _) eqn:E2; [|auto]. apply existsb_exists in E2 as (r0 & H0 & E2).
        apply filter_In in H0 as [H0 HP]. apply Nat.eqb_eq in E2.
        assert (r = r0). 2:{ subst. congruence. }
        clear - ND Hin H0 E2. induction q as [|z q IH]; [destruct Hin|].
        cbn in ND. apply NoDup_cons_iff in ND as [N1 N2].
        destruct Hin as [->|Hin], H0 as [->|H0]; auto.
        + exfalso. apply N1. rewrite E2. now apply in_map.
        + exfalso. apply N1. rewrite <- E2. now apply in_map. }
    specialize (IH (fun z h => Hi z (or_intror h))).
    unfold reqs in *. cbn [filter]. destruct (r_kind r) eqn:K; cbn [map filter fst].
    - rewrite Hx. destruct (P r); cbn [negb]; [exact IH|]. cbn [filter]. rewrite K. cbn [map]. now f_equal.
    - destruct (P r); cbn [negb]; [exact IH|]. cbn [filter]. rewrite K. exact IH. }
  apply G. apply incl_refl.
Qed.

(** ** The arbitration invariant *)
Record ainv (a : acore) (tr : list out) : Prop := {
  ai_pend : reqs (aq a) = pendings tr;
  ai_nd : NoDup (map r_id (aq a));
  ai_lt : forall r, In r (map r_id (aq a)) \/ In r (map fst (requests tr)) -> r < an a;
  ai_rnd : NoDup (map fst (requests tr));
  ai_snd : NoDup (map fst (selections tr));
  ai_sel : forall r s, In (r, s) (selections tr) ->
     In (r, s) (requests tr) /\ ~ In r (map r_id (aq a)) /\ ~ In r (withdrawals tr);
  ai_req : forall r s, In (r, s) (reqs (aq a)) -> In (r, s) (requests tr);
  ai_wdr : forall r, In r (withdrawals tr) -> r < an a /\ ~ In r (map r_id (aq a));
  ai_cnd : NoDup (ac a);
  ai_comp : forall r, In r (ac a) -> In r (map fst (selections tr)) /\ ~ In r (map fst (grants tr));
  ai_wait : forall r s, In (r, s) (aw a) -> In (r, s) (requests tr);
  ai_gnd : NoDup (map fst (grants tr));
  ai_gr : forall r s, In (r, s) (grants tr) -> In (r, s) (selections tr);
  ai_wait2 : forall r s, In (r, s) (requests tr) -> ~ In r (map fst (grants tr)) -> In (r, s) (aw a);
  ai_comp2 : forall r, In r (map fst (selections tr)) -> ~ In r (map fst (grants tr)) -> In r (ac a)
}.

Lemma fst_inj (l : list (nat * nat)) r s s' : NoDup (map fst l) -> In (r, s) l -> In (r, s') l -> s = s'.
Proof.
  induction l as [|[a b] l IH]; intros N H1 H2; [destruct H1|].
  cbn in N. apply NoDup_cons_iff in N as [N1 N2].
  destruct H1 as [H1|H1], H2 as [H2|H2].
  - congruence.
  - injection H1 as -> ->. exfalso. apply N1. apply (in_map fst) in H2. exact H2.
  - injection H2 as -> ->. exfalso. apply N1. apply (in_map fst) in H1. exact H1.
  - auto.
Qed.

Lemma NoDup_snoc {A} (l : list A) a : NoDup l -> ~ In a l -> NoDup (l ++ [a]).
Proof.
  intros H1 H2. induction l as [|b l IH]; cbn; [repeat constructor; auto|].
  apply NoDup_cons_iff in H1 as [H3 H4]. constructor.
  - rewrite in_app_iff. intros [H|[->|[]]]; [auto|]. apply H2. now left.
  - apply IH; auto. intros H. apply H2. now right.
Qed.

Lemma NoDup_sub {A B} (f : A -> B) (P : A -> bool) l : NoDup (map f l) -> NoDup (map f (filter P l)).
Proof.
  induction l as [|a l IH]; cbn; [auto|]. intros H. apply NoDup_cons_iff in H as [H1 H2].
  destruct (P a); cbn; [|auto]. constructor; [|auto]. intros H. apply H1.
  apply in_map_iff in H as (x & E & H). apply filter_In in H as [H _]. rewrite <- E. now apply in_map.
Qed.

Lemma in_map_filter {A B} (f : A -> B) (P : A -> bool) l b : In b (map f (filter P l)) -> In b (map f l).
Proof. rewrite !in_map_iff. intros (x & E & H). apply filter_In in H as [H _]. eauto. Qed.

Ltac evs := rewrite ?requests_app, ?selections_app, ?grants_app, ?withdrawals_app;
  cbn [requests selections grants withdrawals app]; rewrite ?app_nil_r.
Ltac evsin H := rewrite ?requests_app, ?selections_app, ?grants_app, ?withdrawals_app in H;
  cbn [requests selections grants withdrawals app] in H; rewrite ?app_nil_r in H.

Lemma ainv_req a tr s i : ainv a tr ->
  ainv (AC (aq a ++ [Req (an a) KReq s i]) (ac a) (aw a ++ [(an a, s)]) (S (an a)))
       (tr ++ [ORequested (an a) s]).
Proof.
  intros [P1 P2 P3 P4 P5 P6 P7 P8 P9 P10 P11 P12 P13 P14 P15].
  constructor; cbn [aq ac aw an]; evs; auto.
  - rewrite reqs_app, pendings_app, P1. reflexivity.
  - rewrite map_app. apply NoDup_snoc; [auto|]. intros H. cbn in H. specialize (P3 _ (or_introl H)). lia.
  - intros r [H|H]; rewrite map_app, in_app_iff in H; destruct H as [H|[<-|[]]]; cbn [r_id fst]; try lia.
    + specialize (P3 _ (or_introl H)). lia.
    + specialize (P3 _ (or_intror H)). lia.
  - rewrite map_app. apply NoDup_snoc; [auto|]. intros H. cbn in H. specialize (P3 _ (or_intror H)). lia.
  - intros r s' H. pose proof (P6 _ _ H) as (Q1 & Q2 & Q3).
    assert (Hlt : r < an a) by (apply P3; right; apply (in_map fst) in Q1; exact Q1).
    rewrite in_app_iff. split; [auto|]. split; [|auto].
    rewrite map_app, in_app_iff. intros [H0|[H0|[]]]; [auto|]. cbn in H0. lia.
  - intros r s' H. rewrite reqs_app in H. apply in_app_iff in H as [H|[H|[]]]; apply in_app_iff; [auto|].
    right. left. exact H.
  - intros r H. destruct (P8 r H) as [Q1 Q2]. split; [lia|].
    rewrite map_app, in_app_iff. intros [H0|[H0|[]]]; [auto|]. cbn in H0. lia.
  - intros r s' H. apply in_app_iff in H as [H|[H|[]]]; apply in_app_iff; [auto|]. right. now left.
  - intros r s' H Hg. apply in_app_iff in H as [H|[H|[]]]; apply in_app_iff; [auto|]. right. now left.
Qed.

Lemma ainv_lock a tr s i : ainv a tr ->
  ainv (AC (aq a ++ [Req (an a) KLock s i]) (ac a) (aw a) (S (an a))) (tr ++ [OLockRequested (an a) s]).
Proof.
  intros [P1 P2 P3 P4 P5 P6 P7 P8 P9 P10 P11 P12 P13 P14 P15].
  constructor; cbn [aq ac aw an]; evs; auto.
  - rewrite reqs_app, pendings_app, P1. cbn. now rewrite app_nil_r.
  - rewrite map_app. apply NoDup_snoc; [auto|]. intros H. cbn in H. specialize (P3 _ (or_introl H)). lia.
  - intros r [H|H].
    + rewrite map_app, in_app_iff in H; destruct H as [H|[<-|[]]]; cbn [r_id fst]; try lia.
      specialize (P3 _ (or_introl H)). lia.
    + specialize (P3 _ (or_intror H)). lia.
  - intros r s' H. pose proof (P6 _ _ H) as (Q1 & Q2 & Q3).
    assert (Hlt : r < an a) by (apply P3; right; apply (in_map fst) in Q1; exact Q1).
    split; [auto|]. split; [|auto].
    rewrite map_app, in_app_iff. intros [H0|[H0|[]]]; [auto|]. cbn in H0. lia.
  - intros r s' H. rewrite reqs_app in H. apply in_app_iff in H as [H|H]; [auto|destruct H].
  - intros r H. destruct (P8 r H) as [Q1 Q2]. split; [lia|].
    rewrite map_app, in_app_iff. intros [H0|[H0|[]]]; [auto|]. cbn in H0. lia.
Qed.

Lemma ainv_step a tr o b : ainv a tr -> astep a o b -> ainv b (tr ++ o).
Proof.
  intros HI H. destruct H as [a k|a s i|a s i|a r s Hw Hc|a i r Hn HK|a P].
  - destruct HI as [P1 P2 P3 P4 P5 P6 P7 P8 P9 P10 P11 P12 P13 P14 P15].
    rewrite app_nil_r. constructor; cbn [aq ac aw an]; auto.
    + intros r H. specialize (P3 r H). lia.
    + intros r H. destruct (P8 r H). split; [lia|auto].
  - now apply ainv_req.
  - pose proof (ainv_req _ _ s i (ainv_lock a tr s i HI)) as H. cbn [aq ac aw an] in H.
    rewrite <- (app_assoc tr) in H. exact H.
  - destruct HI as [P1 P2 P3 P4 P5 P6 P7 P8 P9 P10 P11 P12 P13 P14 P15].
    destruct (P10 r Hc) as [Q1 Q2].
    assert (Hsel : In (r, s) (selections tr)).
    { apply in_map_iff in Q1 as ([r' s'] & E & Q1). cbn in E. subst r'.
      destruct (P6 _ _ Q1) as (Q3 & _). specialize (P11 _ _ Hw).
      now rewrite (fst_inj _ _ _ _ P4 P11 Q3). }
    constructor; cbn [aq ac aw an]; evs; auto.
    + now rewrite pendings_app.
    + now apply NoDup_filter.
    + intros r' H. apply filter_In in H as [H E]. destruct (P10 r' H) as [Q3 Q4]. split; [auto|].
      rewrite map_app, in_app_iff. intros [H0|[H0|[]]]; [auto|]. cbn in H0. subst r'.
      now rewrite Nat.eqb_refl in E.
    + intros r' s' H. apply filter_In in H as [H _]. auto.
    + rewrite map_app. now apply NoDup_snoc.
    + intros r' s' H. apply in_app_iff in H as [H|[H|[]]]; [auto|]. now injection H as <- <-.
    + intros r' s' H Hg. rewrite map_app, in_app_iff in Hg. apply filter_In. split; [apply P14; tauto|].
      cbn [fst]. apply negb_true_iff, Nat.eqb_neq. intros ->. apply Hg. right. now left.
    + intros r' H Hg. rewrite map_app, in_app_iff in Hg. apply filter_In. split; [apply P15; tauto|].
      apply negb_true_iff, Nat.eqb_neq. intros ->. apply Hg. right. now left.
  - destruct HI as [P1 P2 P3 P4 P5 P6 P7 P8 P9 P10 P11 P12 P13 P14 P15].
    apply remove_nth_split in Hn as (l1 & l2 & E1 & E2 & _).
    assert (Hr : In (r_id r, r_seq r) (reqs (aq a))).
    { rewrite E1, reqs_app. apply in_app_iff. right. unfold reqs. cbn [filter]. rewrite HK. now left. }
    assert (Hd : ~ In (r_id r) (map r_id (l1 ++ l2))).
    { rewrite E1, map_app in P2. cbn [map] in P2. apply NoDup_remove_2 in P2. now rewrite map_app. }
    assert (Hsub : forall z, In z (map r_id (l1 ++ l2)) -> In z (map r_id (aq a))).
    { intros z. rewrite E1, !map_app, !in_app_iff. cbn. tauto. }
    assert (Hns : ~ In (r_id r) (map fst (selections tr))).
    { intros H. apply in_map_iff in H as ([r' s'] & E & H). cbn in E. subst r'.
      apply P6 in H as (_ & H & _). apply H. rewrite E1, map_app, in_app_iff. right. now left. }
    constructor; cbn [aq ac aw an]; evs; rewrite ?E2; auto.
    + rewrite pendings_app, <- P1, E1. cbn [fold_left pend].
      rewrite !reqs_app, filter_app. unfold reqs at 4. cbn [filter]. rewrite HK. cbn [map filter fst].
      rewrite Nat.eqb_refl. cbn [negb].
      fold (reqs l2). rewrite map_app, in_app_iff in Hd.
      rewrite !filter_notin by tauto. reflexivity.
    + rewrite E1, map_app in P2. cbn [map] in P2. apply NoDup_remove_1 in P2. now rewrite map_app.
    + intros z [H|H]; auto.
    + rewrite map_app. now apply NoDup_snoc.
    + intros r' s' H. apply in_app_iff in H as [H|[H|[]]].
      * destruct (P6 _ _ H) as (Q1 & Q2 & Q3). split; [auto|]. split; [|auto]. intros H0. auto.
      * injection H as <- <-. split; [auto|]. split; [auto|]. intros H. apply P8 in H as [_ H].
        apply H. rewrite E1, map_app, in_app_iff. right. now left.
    + intros r' s' H. apply P7. rewrite E1, reqs_app. rewrite reqs_app in H. apply in_app_iff.
      apply in_app_iff in H as [H|H]; [auto|]. right. unfold reqs. cbn [filter]. rewrite HK. right. exact H.
    + intros r' H. destruct (P8 r' H) as [Q1 Q2]. split; [auto|]. intros H0. auto.
    + constructor; [|auto]. intros H. apply P10 in H as [H _]. auto.
    + intros r' [<-|H].
      * rewrite map_app, in_app_iff. split; [right; now left|].
        intros H. apply in_map_iff in H as ([r' s'] & E & H). cbn in E. subst r'.
        apply P13 in H. apply Hns. apply (in_map fst) in H. exact H.
      * destruct (P10 r' H). rewrite map_app, in_app_iff. auto.
    + intros r' s' H. apply in_app_iff. auto.
    + intros r' H Hg. rewrite map_app, in_app_iff in H. destruct H as [H|[<-|[]]]; [right; auto|now left].
  - destruct HI as [P1 P2 P3 P4 P5 P6 P7 P8 P9 P10 P11 P12 P13 P14 P15].
    destruct (removed_events (filter P (aq a))) as (R1 & R2 & R3 & R4).
    assert (Hsub : forall z, In z (map r_id (filter (fun r => negb (P r)) (aq a))) -> In z (map r_id (aq a))).
    { intros z H. eapply in_map_filter; eauto. }
    assert (Hx : forall z, In z (map r_id (filter P (aq a))) ->
                  ~ In z (map r_id (filter (fun r => negb (P r)) (aq a)))).
    { clear - P2. induction (aq a) as [|r q IH]; cbn; [auto|]. cbn in P2.
      apply NoDup_cons_iff in P2 as [N1 N2]. intros z. destruct (P r); cbn.
      - intros [<-|H] H2; [apply N1; eapply in_map_filter; eauto|]. now apply (IH N2 z).
      - intros H [<-|H2]; [apply N1; eapply in_map_filter; eauto|]. now apply (IH N2 z). }
    constructor; cbn [aq ac aw an]; evs; rewrite ?R1, ?R2, ?R3, ?R4, ?app_nil_r; auto.
    + rewrite pendings_app, <- P1, pend_removed. symmetry. now apply reqs_filter.
    + now apply NoDup_sub.
    + intros z [H|H]; auto.
    + intros r s H. destruct (P6 _ _ H) as (Q1 & Q2 & Q3). split; [auto|]. split; [intros H0; auto|].
      rewrite in_app_iff. intros [H0|H0]; [auto|]. apply Q2. eapply in_map_filter; eauto.
    + intros r s H. apply P7. unfold reqs in *. apply in_map_iff in H as (x & E & H).
      apply filter_In in H as [H1 H2]. apply filter_In in H1 as [H1 _].
      apply in_map_iff. exists x. rewrite filter_In. auto.
    + intros r H. apply in_app_iff in H as [H|H].
      * destruct (P8 r H) as [Q1 Q2]. split; [auto|]. intros H0. auto.
      * split; [|auto]. apply P3. left. eapply in_map_filter; eauto.
Qed.

Lemma ainv0 : ainv (core sqr0) [].
Proof. constructor; cbn; try (constructor; fail); try tauto. Qed.

Lemma ainv_ae a tr : ainv a (ae tr) <-> ainv a tr.
Proof.
  assert (Hp : pendings (ae tr) = pendings tr) by apply pend_ae.
  split; intros [P1 P2 P3 P4 P5 P6 P7 P8 P9 P10 P11 P12 P13 P14 P15];
    rewrite ?Hp, ?requests_ae, ?selections_ae, ?grants_ae, ?withdrawals_ae in *;
    constructor; rewrite ?Hp, ?requests_ae, ?selections_ae, ?grants_ae, ?withdrawals_ae; auto.
Qed.

Lemma ainv_run anc ls : ainv (core (fst (run_machine (step anc) sqr0 ls)))
                             (snd (run_machine (step anc) sqr0 ls)).
Proof.
  refine (run_machine_inv (step anc) (fun y tr => ainv (core y) tr) _ ls sqr0 [] ainv0).
  intros y tr l H. apply ainv_ae. rewrite ae_app. eapply ainv_step; [apply ainv_ae; exact H|].
  apply step_arb.
Qed.

(** ** What a selection is *)
Definition asks (l : lab) (rel : nat -> bool) (rnd : nat) : Prop :=
  l = LNext rel rnd \/ l = LPeek rel rnd \/ l = LTry rel rnd.

Lemma ae_in o tr : is_arb o = true -> In o tr -> In o (ae tr).
Proof. intros. apply filter_In. auto. Qed.

Lemma try_select_sel anc y rel rnd y1 o go r s : try_select anc y rel rnd = (y1, o, go) ->
  In (OSelected r s) o -> go = true /\ exists i q, choose anc y rel rnd = CSome i
    /\ nth_error (arbq y) i = Some q /\ r_id q = r /\ r_seq q = s /\ o = [OSelected r s].
Proof.
  unfold try_select. destruct (choose anc y rel rnd) as [|i| |] eqn:E.
  - intros [= <- <- <-] [].
  - unfold select. destruct (nth_error (arbq y) i) as [q|] eqn:N.
    + intros [= <- <- <-] [H|[]]. injection H as <- <-. split; [auto|]. exists i, q. auto.
    + intros [= <- <- <-] [].
  - intros [= <- <- <-] [H|[]]. discriminate.
  - intros [= <- <- <-] [H|[]]. discriminate.
Qed.

Lemma sel_choose anc y l r s : In (OSelected r s) (snd (step anc y l)) ->
  exists rel rnd i q, asks l rel rnd /\ choose anc y rel rnd = CSome i
    /\ nth_error (arbq y) i = Some q /\ r_id q = r /\ r_seq q = s.
Proof.
  intros H. pose proof (ae_in (OSelected r s) _ eq_refl H) as Ha. unfold asks.
  destruct l as [s0|s0 lk|r0|s0 t p|s0|s0| |s0|a|k|rel rnd|rel rnd| | |rel rnd|rsp|x|p s0 t|p|s0 d|s0 b];
    cbn [step] in *.
  - destruct H as [H|[]]. discriminate.
  - unfold request in H. destruct lk; cbn in H; intuition discriminate.
  - unfold granted in H. destruct (find _ _) as [[? ?]|]; [|destruct H].
    destruct (existsb _ _); [|destruct H]. destruct H as [H|[]]. discriminate.
  - unfold send_request in H. destruct (Z.ltb _ _); sq; [destruct H as [H|[]]; discriminate|].
    destruct (fifo y); sq; [|cbn in H; intuition discriminate].
    destruct (lock_first _); cbn in H; intuition discriminate.
  - destruct H.
  - destruct (iwait y s0) as [[]|]; sq; try destruct H.
    destruct (Z.eqb _ _); sq; cbn in H; intuition discriminate.
  - destruct H.
  - unfold remove_seq in H. sq. apply in_map_iff in H as (? & ? & _). discriminate.
  - destruct H.
  - destruct H.
  - destruct (requested y).
    + sq. destruct (called y); cbn in H; intuition discriminate.
    + destruct (try_select anc y rel rnd) as [[y1 o] go] eqn:E. sq.
      apply in_app_iff in H as [H|H]; [destruct (called y); cbn in H; intuition discriminate|].
      eapply try_select_sel in E as (_ & i & q & E1 & E2 & E3 & E4 & _); eauto. exists rel, rnd, i, q. auto.
  - destruct (requested y); [destruct H|].
    destruct (try_select anc y rel rnd) as [[y1 o] go] eqn:E. sq.
    eapply try_select_sel in E as (_ & i & q & E1 & E2 & E3 & E4 & _); eauto. exists rel, rnd, i, q. auto.
  - destruct (requested y); [|destruct H]. destruct (fifo y); cbn in H; intuition discriminate.
  - destruct (requested y); [|destruct H]. destruct (fifo y); [destruct H|].
    pose proof (item_done_same y None) as [_ HD]. destruct (item_done y None) as [y1 o]. sq.
    cbn [ae filter is_arb] in Ha. change (filter is_arb o) with (ae o) in Ha. rewrite HD in Ha. destruct Ha.
  - destruct (called y); [cbn in H; intuition discriminate|].
    destruct (choose anc y rel rnd) as [|i| |] eqn:E; try (cbn in H; intuition discriminate).
    unfold select in H. destruct (nth_error (arbq y) i) as [q|] eqn:N; sq; [|destruct H].
    destruct H as [H|[]]. injection H as <- <-. exists rel, rnd, i, q. auto 7.
  - destruct (item_done_same y rsp) as [_ HD]. rewrite HD in Ha. destruct Ha.
  - destruct (put_response_same y x) as [_ HD]. rewrite HD in Ha. destruct Ha.
  - unfold get_call in *. destruct (respq y s0); [destruct H|].
    rewrite (proj2 (get_scan_same y p s0 t)) in Ha. destruct Ha.
  - unfold get_wake in *. destruct (getters y p) as [g|]; [|destruct H].
    destruct (g_size g).
    + destruct (Nat.eqb _ _); [destruct H|]. rewrite (proj2 (get_scan_same _ _ _ _)) in Ha. destruct Ha.
    + destruct (respq y (g_seq g)); [destruct H|]. rewrite (proj2 (get_scan_same _ _ _ _)) in Ha. destruct Ha.
  - destruct H.
  - destruct H.
Qed.

Lemma not_blocked_spec anc y s : is_blocked anc y s = false ->
  forall h, In h (locks y) -> h = s \/ In h (anc s).
Proof.
  unfold is_blocked. intros H h Hin.
  destruct (Nat.eq_dec h s) as [->|N]; [now left|]. right.
  destruct (existsb (Nat.eqb h) (anc s)) eqn:E; [now apply in_existsb_nat|].
  assert (HT : existsb (fun l => negb (Nat.eqb l s) && negb (is_child anc l s)) (locks y) = true).
  { apply existsb_exists. exists h. split; [auto|]. unfold is_child. rewrite E.
    apply Nat.eqb_neq in N. now rewrite N. }
  congruence.
Qed.

(** The first selection under FIFO arbitration. *)
Lemma choose_fifo anc y rel rnd i : arb y = 0 -> choose anc y rel rnd = CSome i ->
  forall q, In q (firstn i (arbq y)) ->
    r_kind q = KLock \/ is_blocked anc y (r_seq q) = true \/ rel (r_seq q) = false.
Proof.
  intros HA. unfold choose. rewrite HA. cbn [Nat.eqb]. destruct (lock_first y); [discriminate|].
  destruct (avail anc y rel 0 (arbq y)) as [|j l] eqn:E; [discriminate|].
  intros [= <-] q Hq. apply (avail_first anc y rel (arbq y) 0 j l E). now rewrite Nat.sub_0_r.
Qed.

Lemma is_blocked_nil anc y s : locks y = [] -> is_blocked anc y s = false.
Proof. unfold is_blocked. now intros ->. Qed.

Lemma firstn_split {A} (q : list A) i a : nth_error q i = Some a ->
  exists t, q = firstn i q ++ a :: t.
Proof.
  intros H. exists (skipn (S i) q). revert i H. induction q as [|b q IH]; intros [|i] H; try discriminate.
  - injection H as ->. reflexivity.
  - cbn. f_equal. now apply IH.
Qed.

Lemma reqs_cons_req r q : r_kind r = KReq -> reqs (r :: q) = (r_id r, r_seq r) :: reqs q.
Proof. intros K. unfold reqs. cbn [filter]. now rewrite K. Qed.

Lemma sel_first anc y l rel rnd r s : locks y = [] -> arb y = 0 -> asks l rel rnd ->
  In (OSelected r s) (snd (step anc y l)) ->
  exists b a, reqs (arbq y) = b ++ (r, s) :: a /\ rel s = true /\ forall x, In x b -> rel (snd x) = false.
Proof.
  intros HL HA Hask H. apply sel_choose in H as (rel' & rnd' & i & q & Hask' & HC & HN & <- & <-).
  assert (rel' = rel /\ rnd' = rnd) as [-> ->].
  { unfold asks in *. intuition congruence. }
  pose proof (choose_nth _ _ _ _ _ HC) as (q' & HN' & HK & _ & HR). rewrite HN in HN'. injection HN' as <-.
  pose proof (choose_fifo _ _ _ _ _ HA HC) as HF.
  destruct (firstn_split _ _ _ HN) as [t Ht].
  exists (reqs (firstn i (arbq y))), (reqs t). split; [|split; [auto|]].
  - rewrite Ht at 1. rewrite reqs_app, reqs_cons_req by auto. reflexivity.
  - intros [r' s'] Hx. unfold reqs in Hx. apply in_map_iff in Hx as (z & E & Hz). injection E as <- <-.
    apply filter_In in Hz as [Hz HKz]. cbn [snd]. destruct (HF z Hz) as [H0|[H0|H0]]; [|exfalso|auto].
    + rewrite H0 in HKz. discriminate.
    + rewrite (is_blocked_nil anc y (r_seq z) HL) in H0. discriminate.
Qed.

(** ** No lock is ever held *)
Lemma remove_filter_nil (f : nat -> bool) l : l = [] -> filter f l = [].
Proof. now intros ->. Qed.

Lemma put_base_locks y s x : locks (fst (put_base y s x)) = locks y /\ arb (fst (put_base y s x)) = arb y.
Proof. unfold put_base. destruct (_ || _); auto. Qed.
Lemma put_response_locks y x : locks (fst (put_response y x)) = locks y /\ arb (fst (put_response y x)) = arb y.
Proof.
  unfold put_response. destruct (Z.eqb _ _); [auto|]. destruct (reg y (i_sid x)) as [s|]; [|auto].
  destruct (handler y s); [auto|]. apply put_base_locks.
Qed.
Lemma item_done_locks y r : locks (fst (item_done y r)) = locks y /\ arb (fst (item_done y r)) = arb y.
Proof.
  unfold item_done. change (fifo (set_flags y false false)) with (fifo y).
  destruct (fifo y) as [|x f]; [auto|].
  match goal with |- context[set_wait ?a ?b ?c ?d] => set (y1 := set_wait a b c d) end.
  change (locks y) with (locks y1). change (arb y) with (arb y1). clearbody y1.
  destruct r as [t|].
  - pose proof (put_response_locks y1 t) as H. destruct (put_response y1 t) as [y2 o]. sq.
    destruct (existsb _ o); auto.
  - cbn [existsb]. auto.
Qed.
Lemma get_scan_locks y p s t : locks (fst (get_scan y p s t)) = locks y /\ arb (fst (get_scan y p s t)) = arb y.
Proof.
  unfold get_scan. destruct (Z.eqb _ _).
  - destruct (respq y s); auto.
  - destruct (take_tid _ _) as [[? ?]|]; auto.
Qed.
Lemma register_locks y s : locks (register y s) = locks y /\ arb (register y s) = arb y.
Proof. unfold register. destruct (Z.gtb _ _); auto. Qed.
Lemma try_select_locks anc y rel rnd : locks (fst (fst (try_select anc y rel rnd))) = locks y
  /\ arb (fst (fst (try_select anc y rel rnd))) = arb y.
Proof.
  unfold try_select. destruct (choose _ _ _ _) as [|i| |]; auto. unfold select.
  destruct (nth_error _ _); auto.
Qed.

Lemma step_locks anc y l : locks y = [] -> locks (fst (step anc y l)) = [].
Proof.
  intros HL.
  destruct l as [s0|s0 lk|r0|s0 t p|s0|s0| |s0|a|k|rel rnd|rel rnd| | |rel rnd|rsp|x|p s0 t|p|s0 d|s0 b];
    cbn [step]; auto.
  - unfold start. sq. unfold register. destruct (Z.gtb _ _); auto.
  - unfold request. sq. unfold register. destruct (Z.gtb _ _); auto.
  - unfold granted. destruct (find _ _) as [[? ?]|]; [|auto]. destruct (existsb _ _); auto.
  - unfold send_request. destruct (Z.ltb _ _); [auto|]. sq. destruct (fifo y); auto.
  - destruct (iwait y s0) as [[]|]; auto. destruct (Z.eqb _ _); auto.
  - unfold remove_seq. sq. rewrite HL. cbn [filter].
    destruct (filter (gone anc y s0) (arbq y)); reflexivity.
  - destruct (requested y); [auto|]. pose proof (try_select_locks anc y rel rnd) as [H _].
    destruct (try_select anc y rel rnd) as [[y1 o] go]. sq. destruct go; sq; congruence.
  - destruct (requested y); [auto|]. pose proof (try_select_locks anc y rel rnd) as [H _].
    destruct (try_select anc y rel rnd) as [[y1 o] go]. sq. destruct go; sq; congruence.
  - destruct (requested y); [|auto]. destruct (fifo y); auto.
  - destruct (requested y); [|auto]. destruct (fifo y); [auto|].
    pose proof (item_done_locks y None) as [H _]. destruct (item_done y None). sq. congruence.
  - destruct (called y); [auto|]. pose proof (try_select_locks anc y rel rnd) as [H _]. unfold try_select in H.
    destruct (choose anc y rel rnd) as [|i| |]; auto. destruct (select y i). sq. congruence.
  - rewrite (proj1 (item_done_locks y rsp)). auto.
  - rewrite (proj1 (put_response_locks y x)). auto.
  - unfold get_call. destruct (respq y s0); [auto|]. rewrite (proj1 (get_scan_locks _ _ _ _)). auto.
  - unfold get_wake. destruct (getters y p) as [g|]; [|auto]. destruct (g_size g).
    + destruct (Nat.eqb _ _); [auto|]. rewrite (proj1 (get_scan_locks _ _ _ _)). auto.
    + destruct (respq y (g_seq g)); [auto|]. rewrite (proj1 (get_scan_locks _ _ _ _)). auto.
Qed.

(** The arbitration mode changes only by set_arbitration. *)
Lemma step_mode anc y l : (forall a, l <> LArb a) -> arb (fst (step anc y l)) = arb y.
Proof.
  intros HN.
  destruct l as [s0|s0 lk|r0|s0 t p|s0|s0| |s0|a|k|rel rnd|rel rnd| | |rel rnd|rsp|x|p s0 t|p|s0 d|s0 b];
    cbn [step]; auto.
  - unfold start. sq. unfold register. destruct (Z.gtb _ _); auto.
  - unfold request. sq. unfold register. destruct (Z.gtb _ _); auto.
  - unfold granted. destruct (find _ _) as [[? ?]|]; [|auto]. destruct (existsb _ _); auto.
  - unfold send_request. destruct (Z.ltb _ _); [auto|]. sq. destruct (fifo y); auto.
  - destruct (iwait y s0) as [[]|]; auto. destruct (Z.eqb _ _); auto.
  - unfold remove_seq. sq.
    destruct (filter (gone anc y s0) (arbq y)), (filter _ (locks y)); reflexivity.
  - destruct (HN a eq_refl).
  - destruct (requested y); [auto|]. pose proof (try_select_locks anc y rel rnd) as [_ H].
    destruct (try_select anc y rel rnd) as [[y1 o] go]. sq. destruct go; sq; congruence.
  - destruct (requested y); [auto|]. pose proof (try_select_locks anc y rel rnd) as [_ H].
    destruct (try_select anc y rel rnd) as [[y1 o] go]. sq. destruct go; sq; congruence.
  - destruct (requested y); [|auto]. destruct (fifo y); auto.
  - destruct (requested y); [|auto]. destruct (fifo y); [auto|].
    pose proof (item_done_locks y None) as [_ H]. destruct (item_done y None). sq. congruence.
  - destruct (called y); [auto|]. pose proof (try_select_locks anc y rel rnd) as [_ H]. unfold try_select in H.
    destruct (choose anc y rel rnd) as [|i| |]; auto. destruct (select y i). sq. congruence.
  - apply (proj2 (item_done_locks y rsp)).
  - apply (proj2 (put_response_locks y x)).
  - unfold get_call. destruct (respq y s0); [auto|]. apply (proj2 (get_scan_locks _ _ _ _)).
  - unfold get_wake. destruct (getters y p) as [g|]; [|auto]. destruct (g_size g).
    + destruct (Nat.eqb _ _); [auto|]. apply (proj2 (get_scan_locks _ _ _ _)).
    + destruct (respq y (g_seq g)); [auto|]. apply (proj2 (get_scan_locks _ _ _ _)).
Qed.

(** Without lock requests the queue holds item requests only. *)
Lemma astep_nolock a o b : astep a o b -> (forall r s, ~ In (OLockRequested r s) o) ->
  (forall q, In q (aq a) -> r_kind q = KReq) -> forall q, In q (aq b) -> r_kind q = KReq.
Proof.
  intros H HN HQ q Hq. destruct H as [a k|a s i|a s i|a r s Hw Hc|a i r Hn HK|a P]; cbn [aq] in Hq; auto.
  - apply in_app_iff in Hq as [Hq|[<-|[]]]; auto.
  - exfalso. apply (HN (an a) s). now left.
  - apply remove_nth_split in Hn as (l1 & l2 & E1 & E2 & _). rewrite E2 in Hq. apply HQ. rewrite E1.
    apply in_app_iff in Hq. apply in_app_iff. cbn. tauto.
  - apply filter_In in Hq as [Hq _]. auto.
Qed.

(** ** FIFO order *)
Definition not_in (l : list nat) (x : nat * nat) : bool := negb (existsb (Nat.eqb (fst x)) l).
Definition fifo_eq (tr : list out) : Prop :=
  selections tr ++ pendings tr = filter (not_in (withdrawals tr)) (requests tr).

Lemma not_in_app a b x : not_in (a ++ b) x = not_in a x && not_in b x.
Proof. unfold not_in. now rewrite existsb_app, negb_orb. Qed.

Lemma filter_filter2 {A} (f g h : A -> bool) l : (forall x, h x = f x && g x) ->
  filter h l = filter g (filter f l).
Proof.
  intros E. induction l as [|a l IH]; cbn; [auto|]. rewrite E.
  destruct (f a); cbn; rewrite IH; [|auto]. now destruct (g a).
Qed.

Lemma existsb_map_id (l : list req) n : existsb (fun r => Nat.eqb n (r_id r)) l = existsb (Nat.eqb n) (map r_id l).
Proof. induction l as [|a l IH]; cbn; [auto|]. now rewrite IH. Qed.

Lemma fifo_step a tr o b : ainv a tr -> fifo_eq tr -> astep a o b ->
  (forall r s, In (OSelected r s) o -> exists t, reqs (aq a) = (r, s) :: t) -> fifo_eq (tr ++ o).
Proof.
  intros HI HF H HS. unfold fifo_eq in *.
  destruct H as [a k|a s i|a s i|a r s Hw Hc|a i r Hn HK|a P]; evs; rewrite ?pendings_app.
  - cbn [fold_left]. exact HF.
  - cbn [fold_left pend]. rewrite app_assoc, HF, filter_app. f_equal. cbn [filter].
    destruct (not_in _ _) eqn:E; [auto|]. unfold not_in in E. cbn [fst] in E. apply negb_false_iff, in_existsb_nat in E.
    apply (ai_wdr _ _ HI) in E as [E _]. lia.
  - cbn [fold_left pend]. rewrite app_assoc, HF, filter_app. f_equal. cbn [filter].
    destruct (not_in _ _) eqn:E; [auto|]. unfold not_in in E. cbn [fst] in E. apply negb_false_iff, in_existsb_nat in E.
    apply (ai_wdr _ _ HI) in E as [E _]. lia.
  - exact HF.
  - cbn [fold_left pend]. destruct (HS _ _ (or_introl eq_refl)) as [t Ht].
    rewrite <- HF, <- (ai_pend _ _ HI), Ht. cbn [filter fst]. rewrite Nat.eqb_refl. cbn [negb].
    rewrite <- app_assoc. cbn [app]. do 2 f_equal. apply filter_id. intros [r' s'] Hin. cbn [fst].
    apply negb_true_iff, Nat.eqb_neq. intros ->.
    pose proof (ai_nd _ _ HI) as ND. apply (NoDup_sub r_id (fun r => match r_kind r with KReq => true | KLock => false end)) in ND.
    assert (E : map r_id (filter (fun r => match r_kind r with KReq => true | KLock => false end) (aq a)) = map fst (reqs (aq a))).
    { unfold reqs. now rewrite map_map. }
    rewrite E, Ht in ND. cbn [map fst] in ND. apply NoDup_cons_iff in ND as [ND _]. apply ND.
    apply (in_map fst) in Hin. exact Hin.
  - destruct (removed_events (filter P (aq a))) as (R1 & R2 & R3 & R4). rewrite R1, R2, R4, !app_nil_r.
    rewrite pend_removed.
    rewrite (filter_filter2 (not_in (withdrawals tr)) (not_in (map r_id (filter P (aq a)))) (not_in (withdrawals tr ++ map r_id (filter P (aq a))))) by (intros; apply not_in_app).
    rewrite <- HF, filter_app. f_equal.
    + symmetry. apply filter_id. intros [r s] Hin. unfold not_in. cbn [fst]. apply negb_true_iff.
      destruct (existsb _ _) eqn:E; [|auto]. apply in_existsb_nat, in_map_filter in E.
      apply (ai_sel _ _ HI) in Hin as (_ & Hin & _). contradiction.
    + apply filter_ext. intros [r s]. unfold not_in. cbn [fst]. now rewrite existsb_map_id.
Qed.

Definition fifo_ok (l : lab) : Prop :=
  match l with
  | LNext rel _ | LPeek rel _ | LTry rel _ => forall s, rel s = true
  | LArb a => a = 0
  | _ => True
  end.

Lemma asks_ok l rel rnd : asks l rel rnd -> fifo_ok l -> forall s, rel s = true.
Proof. now intros [->|[->| ->]]. Qed.

Lemma locks_run anc ls : locks (fst (run_machine (step anc) sqr0 ls)) = [].
Proof.
  refine (run_machine_inv (step anc) (fun y tr => locks y = []) _ ls sqr0 [] eq_refl).
  intros y _ l H. now apply step_locks.
Qed.

Lemma mode_run anc ls : (forall a, In (LArb a) ls -> a = 0) -> arb (fst (run_machine (step anc) sqr0 ls)) = 0.
Proof.
  intros H.
  refine (run_machine_inv_ok (step anc) (fun l => forall a, l = LArb a -> a = 0) (fun y tr => arb y = 0) _ ls sqr0 [] _ eq_refl).
  - intros y _ l Hl HA. destruct l; try (rewrite step_mode; [exact HA|discriminate]). cbn. now apply Hl.
  - apply Forall_forall. intros l Hl a ->. auto.
Qed.

Lemma fifo_run anc ls : Forall fifo_ok ls -> fifo_eq (snd (run_machine (step anc) sqr0 ls)).
Proof.
  intros HO.
  assert (G : ainv (core (fst (run_machine (step anc) sqr0 ls))) ([] ++ snd (run_machine (step anc) sqr0 ls))
    /\ locks (fst (run_machine (step anc) sqr0 ls)) = [] /\ arb (fst (run_machine (step anc) sqr0 ls)) = 0
    /\ fifo_eq ([] ++ snd (run_machine (step anc) sqr0 ls))); [|apply G].
  refine (run_machine_inv_ok (step anc) fifo_ok (fun y tr => ainv (core y) tr /\ locks y = [] /\ arb y = 0 /\ fifo_eq tr) _ ls sqr0 [] HO _).
  2:{ split; [apply ainv0|]. repeat split; reflexivity. }
  intros y tr l Hl (HI & HL & HA & HF).
  assert (HI' : ainv (core (fst (step anc y l))) (tr ++ snd (step anc y l))).
  { apply ainv_ae. rewrite ae_app. eapply ainv_step; [apply ainv_ae; exact HI|]. apply step_arb. }
  split; [auto|]. split; [now apply step_locks|]. split.
  { destruct l; try (rewrite step_mode; [exact HA|discriminate]). exact Hl. }
  assert (HG : fifo_eq (ae tr ++ ae (snd (step anc y l)))).
  { eapply fifo_step; [apply ainv_ae; exact HI| |apply step_arb|].
    - unfold fifo_eq. rewrite selections_ae, withdrawals_ae, requests_ae. unfold pendings. rewrite pend_ae. exact HF.
    - intros r s Hin. apply filter_In in Hin as [Hin _].
      pose proof Hin as Hc. apply sel_choose in Hc as (rel & rnd & _ & _ & Hask & _).
      destruct (sel_first anc y l rel rnd r s HL HA Hask Hin) as (b & t & E & _ & Hb).
      destruct b as [|x b]; [eauto|]. exfalso. specialize (Hb x (or_introl eq_refl)).
      rewrite (asks_ok _ _ _ Hask Hl) in Hb. discriminate. }
  rewrite <- ae_app in HG. unfold fifo_eq in *.
  rewrite selections_ae, withdrawals_ae, requests_ae in HG. unfold pendings in *. rewrite pend_ae in HG. exact HG.
Qed.

(** ** The handshake *)
Definition hinv (y : sqr) (tr : list out) (p : phase) : Prop :=
  match p with
  | PIdle => requested y = false /\ called y = false /\ completed y = [] /\ (forall s, sem y s = 0%Z) /\ fifo y = []
  | PSelected r s => requested y = true /\ completed y = [r] /\ In (r, s) (requests tr)
      /\ (forall s, sem y s = 0%Z) /\ fifo y = []
  | PGranted s => requested y = true /\ completed y = [] /\ sem y s = 1%Z
      /\ (forall s', s' <> s -> sem y s' = 0%Z) /\ fifo y = []
  | PItem x => requested y = true /\ completed y = [] /\ (forall s, sem y s = 0%Z) /\ fifo y = [x]
  end.

Lemma hs_app p a b : hs p (a ++ b) = match hs p a with Some p' => hs p' b | None => None end.
Proof. revert p. induction a as [|o a IH]; intros p; cbn; [auto|]. destruct (hs1 p o); auto. Qed.

Lemma item_eqb_refl x : item_eqb x x = true.
Proof. unfold item_eqb. now rewrite !Z.eqb_refl, Nat.eqb_refl. Qed.
Lemma item_eqb_eq x z : item_eqb x z = true -> x = z.
Proof.
  destruct x, z. unfold item_eqb. cbn. rewrite !andb_true_iff, !Z.eqb_eq, Nat.eqb_eq. intros [[-> ->] ->]. auto.
Qed.

(** Events that do not concern the handshake. *)
Definition hquiet (o : list out) : Prop := forall p, hs p o = Some p.
Lemma hquiet_nil : hquiet [].
Proof. now intros p. Qed.
Lemma hquiet_app a b : hquiet a -> hquiet b -> hquiet (a ++ b).
Proof. intros H1 H2 p. rewrite hs_app, H1. apply H2. Qed.
Definition hcore (y : sqr) := (requested y, called y, completed y, sem y, fifo y).

Lemma hinv_same y y' tr o p : hcore y' = hcore y -> hinv y tr p -> hinv y' (tr ++ o) p.
Proof.
  unfold hcore. intros [= E1 E2 E3 E4 E5]. destruct p; cbn [hinv]; rewrite ?E1, ?E2, ?E3, ?E4, ?E5; auto.
  rewrite requests_app. intros (H1 & H2 & H3 & H4). repeat split; try tauto. apply in_app_iff. auto.
Qed.

Lemma put_base_h y s x : hcore (fst (put_base y s x)) = hcore y /\ hquiet (snd (put_base y s x)).
Proof. unfold put_base. destruct (_ || _); split; auto; intros p; reflexivity. Qed.
Lemma put_response_h y x : hcore (fst (put_response y x)) = hcore y /\ hquiet (snd (put_response y x)).
Proof.
  unfold put_response. destruct (Z.eqb _ _); [split; auto; intros p; reflexivity|].
  destruct (reg y (i_sid x)) as [s|]; [|split; auto; intros p; reflexivity].
  destruct (handler y s); [split; auto; intros p; reflexivity|]. apply put_base_h.
Qed.
Lemma get_scan_h y p s t : hcore (fst (get_scan y p s t)) = hcore y /\ hquiet (snd (get_scan y p s t)).
Proof.
  unfold get_scan. destruct (Z.eqb _ _).
  - destruct (respq y s); split; auto; intros p0; reflexivity.
  - destruct (take_tid _ _) as [[? ?]|]; split; auto; intros p0; reflexivity.
Qed.
Lemma register_h y s : hcore (register y s) = hcore y.
Proof. unfold register. destruct (Z.gtb _ _); auto. Qed.

Lemma item_done_h y tr r p : hinv y tr p -> ~ In OFatal (snd (item_done y r)) \/ fifo y <> [] ->
  exists x, p = PItem x /\ fifo y = [x] /\ hs p (snd (item_done y r)) = Some PIdle
    /\ forall tr', hinv (fst (item_done y r)) tr' PIdle.
Proof.
  intros HI HN. unfold item_done in *. change (fifo (set_flags y false false)) with (fifo y) in *.
  destruct (fifo y) as [|x f] eqn:EF.
  { exfalso. destruct HN as [HN|HN]; [apply HN; now left|auto]. }
  assert (Hp : p = PItem x /\ f = [] /\ completed y = [] /\ forall s, sem y s = 0%Z).
  { destruct p; cbn [hinv] in HI; rewrite EF in HI; try (exfalso; intuition discriminate).
    destruct HI as (_ & H1 & H2 & H3). injection H3 as -> ->. auto. }
  destruct Hp as (-> & -> & HC & HM). exists x.
  match goal with |- context[set_wait ?a ?b ?c ?d] => set (y1 := set_wait a b c d) in * end.
  assert (HY : hcore y1 = (false, false, @nil nat, sem y, @nil item)).
  { unfold y1, hcore. sq. now rewrite HC. }
  clearbody y1.
  assert (HJ : forall y2 tr', hcore y2 = hcore y1 -> hinv y2 tr' PIdle).
  { intros y2 tr' E. rewrite HY in E. injection E as E1 E2 E3 E4 E5. cbn [hinv].
    rewrite E1, E2, E3, E4, E5. auto. }
  split; [auto|]. split; [auto|]. destruct r as [t|].
  - pose proof (put_response_h y1 t) as [H1 H2]. destruct (put_response y1 t) as [y2 o]. sq.
    destruct (existsb _ o) eqn:EX; sq; cbn [hs hs1]; rewrite item_eqb_refl.
    + split; auto.
    + split; [|auto]. rewrite hs_app, H2. destruct (lock_first y2); reflexivity.
  - cbn [existsb app fst snd] in *. split; [|auto].
    cbn [hs hs1]. rewrite item_eqb_refl. destruct (lock_first y1); reflexivity.
Qed.

Lemma select_h anc y tr rel rnd i : ainv (core y) tr -> hinv y tr PIdle -> choose anc y rel rnd = CSome i ->
  let '(y1, o) := select y i in
  exists r s, o = [OSelected r s] /\ forall c, hinv (set_flags y1 true c) (tr ++ o) (PSelected r s).
Proof.
  intros HI (H1 & H2 & H3 & H4 & H5) HC. apply choose_nth in HC as (q & HN & HK & _).
  unfold select. rewrite HN. exists (r_id q), (r_seq q). split; [auto|]. intros c.
  cbn [hinv]. sq. rewrite H3, H5. repeat split; auto.
  rewrite requests_app. apply in_app_iff. left. apply (ai_req _ _ HI).
  apply nth_error_In in HN. unfold reqs. apply in_map_iff. exists q. split; [auto|].
  apply filter_In. cbn [core aq]. now rewrite HK.
Qed.

Lemma hs_step anc y tr l p : ainv (core y) tr -> hinv y tr p ->
  ~ In OFatal (snd (step anc y l)) ->
  (forall rel rnd, l = LTry rel rnd -> requested y = true -> called y = true) ->
  exists p', hs p (snd (step anc y l)) = Some p' /\ hinv (fst (step anc y l)) (tr ++ snd (step anc y l)) p'.
Proof.
  intros HI HH HN HT.
  assert (HQ : forall y' o, hcore y' = hcore y -> hquiet o ->
     exists p', hs p o = Some p' /\ hinv y' (tr ++ o) p').
  { intros y' o E Hq. exists p. split; [apply Hq|]. eapply hinv_same; eauto. }
  destruct l as [s0|s0 lk|r0|s0 t q|s0|s0| |s0|a|k|rel rnd|rel rnd| | |rel rnd|rsp|x|q s0 t|q|s0 d|s0 b];
    cbn [step] in *.
  - unfold start in *. apply HQ; [|intros p0; reflexivity]. sq. rewrite register_h. reflexivity.
  - unfold request in *. apply HQ; [|intros p0; destruct lk; reflexivity]. rewrite <- (register_h y s0).
    destruct lk; reflexivity.
  - unfold granted in *. destruct (find _ _) as [[r' s]|] eqn:F; [|apply HQ; [auto|apply hquiet_nil]].
    apply find_some in F as [F1 F2]. cbn [fst] in F2. apply Nat.eqb_eq in F2. subst r'.
    destruct (existsb _ _) eqn:E; [|apply HQ; [auto|apply hquiet_nil]].
    apply in_existsb_nat in E. destruct p as [|r' s'|s'|x]; cbn [hinv] in HH.
    + destruct HH as (_ & _ & HC & _). rewrite HC in E. destruct E.
    + destruct HH as (H1 & HC & H2 & H3 & H4). rewrite HC in E. destruct E as [<-|[]].
      pose proof (ai_wait _ _ HI _ _ F1) as F3.
      rewrite (fst_inj _ _ _ _ (ai_rnd _ _ HI) H2 F3) in *.
      exists (PGranted s). split; [cbn; now rewrite !Nat.eqb_refl|]. cbn [hinv]. sq. rewrite HC. cbn [filter].
      rewrite Nat.eqb_refl. cbn [negb]. rewrite upd_eq, H3. repeat split; auto.
      intros s1 Hs1. rewrite upd_neq; auto.
    + destruct HH as (_ & HC & _). rewrite HC in E. destruct E.
    + destruct HH as (_ & HC & _). rewrite HC in E. destruct E.
  - unfold send_request in *. destruct (Z.ltb _ _) eqn:EL; [exfalso; apply HN; now left|].
    apply Z.ltb_ge in EL.
    assert (Hp : p = PGranted s0).
    { destruct p as [|r' s'|s'|x]; cbn [hinv] in HH.
      - destruct HH as (_ & _ & _ & H & _). rewrite H in EL. lia.
      - destruct HH as (_ & _ & _ & H & _). rewrite H in EL. lia.
      - destruct HH as (_ & _ & _ & H & _). destruct (Nat.eq_dec s0 s') as [->|N]; [auto|].
        rewrite H in EL by auto. lia.
      - destruct HH as (_ & _ & H & _). rewrite H in EL. lia. }
    subst p. destruct HH as (H1 & H2 & H3 & H4 & H5). sq. rewrite H5 in *. sq.
    eexists (PItem _). split.
    + cbn [hs hs1]. rewrite Nat.eqb_refl. destruct (lock_first _); reflexivity.
    + cbn [hinv]. sq. repeat split; auto. intros s1. destruct (Nat.eq_dec s1 s0) as [->|N].
      * rewrite upd_eq. lia.
      * rewrite upd_neq by auto. auto.
  - apply HQ; [auto|apply hquiet_nil].
  - destruct (iwait y s0) as [[]|]; try (apply HQ; [auto|apply hquiet_nil]).
    destruct (Z.eqb _ _); apply HQ; auto; intros p0; reflexivity.
  - apply HQ; [auto|apply hquiet_nil].
  - apply HQ.
    + unfold remove_seq. sq. destruct (filter (gone anc y s0) (arbq y)), (filter _ (locks y)); reflexivity.
    + unfold remove_seq. sq. intros p0. induction (filter (gone anc y s0) (arbq y)) as [|z l IH]; cbn; auto.
  - apply HQ; [auto|apply hquiet_nil].
  - apply HQ; [auto|apply hquiet_nil].
  - assert (HE : hquiet (if called y then [OErrTwice] else [])) by (intros p0; destruct (called y); reflexivity).
    destruct (requested y) eqn:ER.
    + sq. exists p. split; [apply HE|]. destruct p; cbn [hinv] in *; sq.
      * exfalso. intuition congruence.
      * rewrite requests_app, in_app_iff. intuition auto.
      * intuition auto.
      * intuition auto.
    + assert (Hp : p = PIdle) by (destruct p; cbn [hinv] in HH; auto; exfalso; intuition congruence). subst p.
      unfold try_select in *. destruct (choose anc y rel rnd) as [|i| |] eqn:EC.
      * sq. apply HQ; [reflexivity|]. rewrite app_nil_r. exact HE.
      * pose proof (select_h anc y tr rel rnd i HI HH EC) as HS.
        destruct (select y i) as [y1 o]. destruct HS as (r & s & -> & HS). sq.
        exists (PSelected r s). split; [rewrite hs_app, HE; reflexivity|].
        replace (called y) with false by (symmetry; apply HH). apply HS.
      * exfalso. apply HN. sq. apply in_app_iff. right. now left.
      * sq. apply HQ; [reflexivity|]. apply hquiet_app; [exact HE|intros p0; reflexivity].
  - destruct (requested y) eqn:ER; [apply HQ; [auto|apply hquiet_nil]|].
    assert (Hp : p = PIdle) by (destruct p; cbn [hinv] in HH; auto; exfalso; intuition congruence). subst p.
    unfold try_select in *. destruct (choose anc y rel rnd) as [|i| |] eqn:EC.
    * sq. apply HQ; [reflexivity|apply hquiet_nil].
    * pose proof (select_h anc y tr rel rnd i HI HH EC) as HS.
      destruct (select y i) as [y1 o]. destruct HS as (r & s & -> & HS). sq.
      exists (PSelected r s). split; [reflexivity|]. apply HS.
    * exfalso. apply HN. sq. now left.
    * sq. apply HQ; [reflexivity|intros p0; reflexivity].
  - destruct (requested y) eqn:ER; [|apply HQ; [auto|apply hquiet_nil]].
    destruct (fifo y) as [|x f] eqn:EF; [apply HQ; [auto|apply hquiet_nil]|].
    exists p. split.
    + destruct p; cbn [hinv] in HH; rewrite EF in HH; try (exfalso; intuition discriminate).
      destruct HH as (_ & _ & _ & H). injection H as -> ->. cbn. now rewrite item_eqb_refl.
    + eapply hinv_same; eauto.
  - destruct (requested y) eqn:ER; [|apply HQ; [auto|apply hquiet_nil]].
    destruct (fifo y) as [|x f] eqn:EF; [apply HQ; [auto|apply hquiet_nil]|].
    destruct (item_done_h y tr None p HH) as (x' & Hp & E' & HD & HD2); [right; congruence|].
    destruct (item_done y None) as [y1 o]. sq. exists PIdle.
    rewrite E' in EF. injection EF as <- <-. split; [|auto].
    rewrite Hp in *. cbn [hs hs1]. rewrite item_eqb_refl. exact HD.
  - destruct (called y) eqn:EC0; [apply HQ; [auto|intros p0; reflexivity]|].
    assert (ER : requested y = false).
    { destruct (requested y) eqn:E; [|auto]. specialize (HT rel rnd eq_refl eq_refl). discriminate. }
    assert (Hp : p = PIdle) by (destruct p; cbn [hinv] in HH; auto; exfalso; intuition congruence). subst p.
    destruct (choose anc y rel rnd) as [|i| |] eqn:EC.
    * sq. apply HQ; [reflexivity|apply hquiet_nil].
    * pose proof (select_h anc y tr rel rnd i HI HH EC) as HS.
      destruct (select y i) as [y1 o]. destruct HS as (r & s & -> & HS). sq.
      exists (PSelected r s). split; [reflexivity|]. apply HS.
    * exfalso. apply HN. sq. now left.
    * sq. apply HQ; [reflexivity|intros p0; reflexivity].
  - destruct (item_done_h y tr rsp p HH) as (x' & Hp & E' & HD & HD2).
    { destruct (fifo y) eqn:EF; [|right; congruence]. left. auto. }
    exists PIdle. auto.
  - apply HQ; apply put_response_h.
  - unfold get_call. destruct (respq y s0); [apply HQ; [auto|apply hquiet_nil]|]. apply HQ; apply get_scan_h.
  - unfold get_wake. destruct (getters y q) as [g|]; [|apply HQ; [auto|apply hquiet_nil]].
    destruct (g_size g).
    + destruct (Nat.eqb _ _); [apply HQ; [auto|apply hquiet_nil]|]. apply HQ; apply get_scan_h.
    + destruct (respq y (g_seq g)); [apply HQ; [auto|apply hquiet_nil]|]. apply HQ; apply get_scan_h.
  - apply HQ; [auto|apply hquiet_nil].
  - apply HQ; [auto|apply hquiet_nil].
Qed.

Lemma hs_run anc ls : ~ In OFatal (snd (run_machine (step anc) sqr0 ls)) ->
  (forall pre rel rnd post, ls = pre ++ LTry rel rnd :: post ->
     requested (fst (run_machine (step anc) sqr0 pre)) = true ->
     called (fst (run_machine (step anc) sqr0 pre)) = true) ->
  exists p, hs PIdle (snd (run_machine (step anc) sqr0 ls)) = Some p
    /\ hinv (fst (run_machine (step anc) sqr0 ls)) (snd (run_machine (step anc) sqr0 ls)) p.
Proof.
  induction ls as [|l ls IH] using rev_ind; intros HN HT.
  - exists PIdle. cbn. repeat split; auto.
  - rewrite run_machine_app in *. cbn [run_machine] in *.
    pose proof (ainv_run anc ls) as HI.
    set (y := fst (run_machine (step anc) sqr0 ls)) in *. set (tr := snd (run_machine (step anc) sqr0 ls)) in *.
    destruct IH as (p & H1 & H2).
    { intros H. apply HN. cbn [snd]. apply in_app_iff. auto. }
    { intros pre rel rnd post E. apply (HT pre rel rnd (post ++ [l])). rewrite E, <- app_assoc. reflexivity. }
    destruct (hs_step anc y tr l p HI H2) as (p' & H3 & H4).
    { intros H. apply HN. destruct (step anc y l) as [y1 o]. cbn [fst snd] in *. rewrite app_nil_r.
      apply in_app_iff. auto. }
    { intros rel rnd -> HR. apply (HT ls rel rnd []); auto. }
    exists p'. destruct (step anc y l) as [y1 o]. cbn [fst snd] in *. rewrite app_nil_r, hs_app, H1. auto.
Qed.

Lemma hs_sent p tr p' : hs p tr = Some p' ->
  (match p with PItem x => [x] | _ => [] end) ++ sent tr = taken tr ++ (match p' with PItem x => [x] | _ => [] end).
Proof.
  revert p. induction tr as [|o tr IH]; intros p H; cbn [hs] in H.
  - injection H as ->. cbn. now rewrite app_nil_r.
  - destruct (hs1 p o) as [p1|] eqn:E; [|discriminate]. specialize (IH p1 H).
    destruct o; cbn [hs1] in E; try (injection E as <-; exact IH).
    + destruct p; try discriminate. injection E as <-. exact IH.
    + destruct p; try discriminate. destruct (_ && _); [|discriminate]. injection E as <-. exact IH.
    + destruct p; try discriminate. destruct (Nat.eqb _ _); [|discriminate]. injection E as <-. exact IH.
    + destruct p; try discriminate. destruct (item_eqb _ _); [|discriminate]. injection E as <-. exact IH.
    + destruct p; try discriminate. destruct (item_eqb x x0) eqn:E2; [|discriminate]. injection E as <-.
      apply item_eqb_eq in E2. subst x0. cbn [sent taken app] in *. now rewrite IH.
    + discriminate.
Qed.

(** ** Responses *)
Lemma take_tid_spec t q x q' : take_tid t q = Some (x, q') ->
  exists a b, q = a ++ x :: b /\ q' = a ++ b /\ i_tid x = t /\ (forall z, In z a -> i_tid z <> t).
Proof.
  revert x q'. induction q as [|z q IH]; intros x q' H; cbn [take_tid] in H; [discriminate|].
  destruct (Z.eqb (i_tid z) t) eqn:E.
  - injection H as <- <-. apply Z.eqb_eq in E. exists [], q. repeat split; auto.
  - destruct (take_tid t q) as [[z' q'']|]; [|discriminate]. injection H as <- <-.
    destruct (IH z' q'' eq_refl) as (a & b & -> & -> & H1 & H2). apply Z.eqb_neq in E.
    exists (z :: a), b. repeat split; auto. intros w [<-|Hw]; auto.
Qed.

Lemma take_tid_none t q : take_tid t q = None -> forall z, In z q -> i_tid z <> t.
Proof.
  induction q as [|z q IH]; intros H w Hw; [destruct Hw|]. cbn [take_tid] in H.
  destruct (Z.eqb (i_tid z) t) eqn:E; [discriminate|]. apply Z.eqb_neq in E.
  destruct (take_tid t q) as [[? ?]|]; [discriminate|]. destruct Hw as [<-|Hw]; auto.
Qed.

Lemma drop_first_mid x a b : (forall z, In z a -> i_tid z <> i_tid x) -> drop_first x (a ++ x :: b) = a ++ b.
Proof.
  induction a as [|z a IH]; intros H; cbn [app drop_first].
  - now rewrite item_eqb_refl.
  - destruct (item_eqb x z) eqn:E.
    + apply item_eqb_eq in E. subst z. exfalso. now apply (H x (or_introl eq_refl)).
    + f_equal. apply IH. intros; apply H. now right.
Qed.

(** Events that do not concern responses. *)
Definition is_resp (o : out) : bool :=
  match o with OQueued _ _ | OGot _ _ _ | OCleared _ => true | _ => false end.

Lemma resp_quiet s q o : filter is_resp o = [] -> fold_left (resp1 s) o q = q.
Proof.
  revert q. induction o as [|e o IH]; intros q H; [auto|]. cbn [filter fold_left] in *.
  destruct e; cbn [is_resp resp1] in *; try discriminate; auto.
Qed.

Definition rstep (q q' : nat -> list item) (o : list out) : Prop :=
  forall s, q' s = fold_left (resp1 s) o (q s).

Lemma rstep_quiet y y' o : respq y' = respq y -> filter is_resp o = [] -> rstep (respq y) (respq y') o.
Proof. intros E H s. rewrite E, resp_quiet; auto. Qed.

Lemma put_base_resp y s x : rstep (respq y) (respq (fst (put_base y s x))) (snd (put_base y s x)).
Proof.
  unfold put_base. destruct (_ || _); sq; [|now apply rstep_quiet].
  intros s'. cbn [fold_left resp1]. unfold upd. rewrite Nat.eqb_sym. destruct (Nat.eqb s' s) eqn:E; rewrite Nat.eqb_sym in E; rewrite E; auto.
  apply Nat.eqb_eq in E. now subst.
Qed.
Lemma put_response_resp y x : rstep (respq y) (respq (fst (put_response y x))) (snd (put_response y x)).
Proof.
  unfold put_response. destruct (Z.eqb _ _); [now apply rstep_quiet|].
  destruct (reg y (i_sid x)) as [s|]; [|now apply rstep_quiet].
  destruct (handler y s); [now apply rstep_quiet|]. apply put_base_resp.
Qed.
Lemma item_done_resp y r : rstep (respq y) (respq (fst (item_done y r))) (snd (item_done y r)).
Proof.
  unfold item_done. change (fifo (set_flags y false false)) with (fifo y).
  destruct (fifo y) as [|x f]; [now apply rstep_quiet|].
  match goal with |- context[set_wait ?a ?b ?c ?d] => set (y1 := set_wait a b c d) in * end.
  change (respq y) with (respq y1). clearbody y1. destruct r as [t|].
  - pose proof (put_response_resp y1 t) as H. destruct (put_response y1 t) as [y2 o]. sq.
    destruct (existsb _ o); sq; [exact H|]. intros s. cbn [fold_left resp1]. rewrite fold_left_app, <- (H s).
    rewrite resp_quiet; [auto|]. now destruct (lock_first y2).
  - cbn [existsb app fst snd]. apply rstep_quiet; [auto|]. now destruct (lock_first y1).
Qed.
Lemma get_scan_resp y p s t : rstep (respq y) (respq (fst (get_scan y p s t))) (snd (get_scan y p s t)).
Proof.
  unfold get_scan. destruct (Z.eqb t (-1)).
  - destruct (respq y s) as [|x q] eqn:E; [now apply rstep_quiet|]. sq. intros s'. cbn [fold_left resp1]. unfold upd.
    rewrite (Nat.eqb_sym s s'). destruct (Nat.eqb s' s) eqn:E2; auto. apply Nat.eqb_eq in E2. subst s'. rewrite E.
    cbn [drop_first]. now rewrite item_eqb_refl.
  - destruct (take_tid t (respq y s)) as [[x q]|] eqn:E; [|now apply rstep_quiet]. sq. intros s'.
    cbn [fold_left resp1]. unfold upd.
    rewrite (Nat.eqb_sym s s'). destruct (Nat.eqb s' s) eqn:E2; auto. apply Nat.eqb_eq in E2. subst s'.
    apply take_tid_spec in E as (a & b & -> & -> & H1 & H2). symmetry. apply drop_first_mid. now rewrite H1.
Qed.

Lemma try_select_resp anc y rel rnd : respq (fst (fst (try_select anc y rel rnd))) = respq y
  /\ filter is_resp (snd (fst (try_select anc y rel rnd))) = [].
Proof.
  unfold try_select. destruct (choose _ _ _ _) as [|i| |]; auto. unfold select. destruct (nth_error _ _); auto.
Qed.

Lemma step_resp anc y l : rstep (respq y) (respq (fst (step anc y l))) (snd (step anc y l)).
Proof.
  destruct l as [s0|s0 lk|r0|s0 t q|s0|s0| |s0|a|k|rel rnd|rel rnd| | |rel rnd|rsp|x|q s0 t|q|s0 d|s0 b];
    cbn [step]; try now apply rstep_quiet.
  - unfold start. sq. intros s'. cbn [fold_left resp1].
    assert (E : forall z, respq (register z s0) = respq z) by (intros z; unfold register; destruct (Z.gtb _ _); auto).
    rewrite E. sq. unfold upd. rewrite (Nat.eqb_sym s0). now destruct (Nat.eqb s' s0).
  - unfold request. apply rstep_quiet; [|destruct lk; reflexivity]. sq.
    unfold register. destruct (Z.gtb _ _); auto.
  - unfold granted. destruct (find _ _) as [[? ?]|]; [|now apply rstep_quiet].
    destruct (existsb _ _); now apply rstep_quiet.
  - unfold send_request. destruct (Z.ltb _ _); [now apply rstep_quiet|]. sq.
    destruct (fifo y); apply rstep_quiet; auto. cbn. now destruct (lock_first _).
  - destruct (iwait y s0) as [[]|]; try now apply rstep_quiet. destruct (Z.eqb _ _); now apply rstep_quiet.
  - unfold remove_seq. apply rstep_quiet.
    + sq. destruct (filter (gone anc y s0) (arbq y)), (filter _ (locks y)); reflexivity.
    + sq. induction (filter (gone anc y s0) (arbq y)) as [|z l IH]; cbn; auto.
  - destruct (requested y); [apply rstep_quiet; auto; sq; now destruct (called y)|].
    pose proof (try_select_resp anc y rel rnd) as [H1 H2]. destruct (try_select anc y rel rnd) as [[y1 o] go]. sq.
    apply rstep_quiet; [destruct go; auto|]. rewrite filter_app, H2. now destruct (called y).
  - destruct (requested y); [now apply rstep_quiet|].
    pose proof (try_select_resp anc y rel rnd) as [H1 H2]. destruct (try_select anc y rel rnd) as [[y1 o] go]. sq.
    apply rstep_quiet; [destruct go; auto|auto].
  - destruct (requested y); [|now apply rstep_quiet]. destruct (fifo y); now apply rstep_quiet.
  - destruct (requested y); [|now apply rstep_quiet]. destruct (fifo y); [now apply rstep_quiet|].
    pose proof (item_done_resp y None) as H. destruct (item_done y None). sq. exact H.
  - destruct (called y); [now apply rstep_quiet|].
    pose proof (try_select_resp anc y rel rnd) as [H1 H2]. unfold try_select in *.
    destruct (choose anc y rel rnd) as [|i| |]; try now apply rstep_quiet.
    destruct (select y i). sq. now apply rstep_quiet.
  - apply item_done_resp.
  - apply put_response_resp.
  - unfold get_call. destruct (respq y s0) eqn:E; [now apply rstep_quiet|]. apply get_scan_resp.
  - unfold get_wake. destruct (getters y q) as [g|]; [|now apply rstep_quiet].
    destruct (g_size g).
    + destruct (Nat.eqb _ _); [now apply rstep_quiet|]. apply get_scan_resp.
    + destruct (respq y (g_seq g)) eqn:E; [now apply rstep_quiet|]. apply get_scan_resp.
Qed.

Lemma resp_run anc ls s : respq (fst (run_machine (step anc) sqr0 ls)) s = responses s (snd (run_machine (step anc) sqr0 ls)).
Proof.
  revert s. refine (run_machine_inv (step anc) (fun y tr => forall s, respq y s = responses s tr) _ ls sqr0 [] _); [|reflexivity].
  intros y tr l H s. unfold responses. rewrite fold_left_app. rewrite step_resp. now rewrite H.
Qed.

(** *** Who a response belongs to *)
Definition mentions (i : Z) (s : nat) (o : out) : Prop :=
  match o with
  | OSent s' x | OQueued s' x | ODropped s' x | OHandled s' x => i_sid x = i /\ s' = s
  | _ => False
  end.

Record owner_inv (own : Z -> nat) (y : sqr) (tr : list out) : Prop := {
  oi_next : (0 < next_sid y)%Z;
  oi_reg : forall i s, reg y i = Some s -> own i = s /\ (0 < i < next_sid y)%Z;
  oi_sid : forall s, sid y s = (-1)%Z \/ (own (sid y s) = s /\ (0 < sid y s < next_sid y)%Z);
  oi_sem : forall s, (1 <= sem y s)%Z -> (0 < sid y s)%Z;
  oi_wait : forall r s, In (r, s) (waiting y) -> (0 < sid y s)%Z;
  oi_tr : forall o i s, In o tr -> mentions i s o -> own i = s /\ (0 < i < next_sid y)%Z
}.

Definition ocore (y : sqr) := (next_sid y, reg y, sid y, sem y, waiting y).

Lemma owner_same own y y' tr o : ocore y' = ocore y -> (forall e, In e o -> forall i s, ~ mentions i s e) ->
  owner_inv own y tr -> owner_inv own y' (tr ++ o).
Proof.
  unfold ocore. intros [= E1 E2 E3 E4 E5] HQ [H1 H2 H3 H4 H5 H6].
  constructor; rewrite ?E1, ?E2, ?E3, ?E4, ?E5; auto.
  intros e i s Hin Hm. apply in_app_iff in Hin as [Hin|Hin]; [eauto|]. destruct (HQ e Hin i s Hm).
Qed.

Lemma owner_new own own' y tr : owner_inv own y tr -> (forall i, (i < next_sid y)%Z -> own' i = own i) ->
  owner_inv own' y tr.
Proof.
  intros [H1 H2 H3 H4 H5 H6] HE. constructor; auto.
  - intros i s H. destruct (H2 i s H) as [E L]. split; [|auto]. rewrite HE by lia. auto.
  - intros s. destruct (H3 s) as [E|[E L]]; [auto|right]. split; [|auto]. rewrite HE by lia. auto.
  - intros o i s Hin Hm. destruct (H6 o i s Hin Hm) as [E L]. split; [|auto]. rewrite HE by lia. auto.
Qed.

(** Registering gives the sequence an id of its own. *)
Lemma owner_register own y tr s : owner_inv own y tr ->
  exists own', owner_inv own' (register y s) tr /\ (0 < sid (register y s) s)%Z.
Proof.
  intros H. unfold register. destruct (Z.gtb (sid y s) 0) eqn:E.
  - rewrite Z.gtb_lt in E. eauto.
  - set (own' := fun i => if Z.eqb i (next_sid y) then s else own i). exists own'.
    assert (H' : owner_inv own' y tr).
    { apply (owner_new own own' y tr H). intros i Hi. unfold own'. destruct (Z.eqb_spec i (next_sid y)); [lia|auto]. }
    destruct H' as [H1 H2 H3 H4 H5 H6].
    split; [|sq; rewrite upd_eq; auto]. constructor; sq; try lia.
    + intros i s' Hr. destruct (Z.eqb_spec i (next_sid y)) as [->|N].
      * injection Hr as <-. unfold own'. rewrite Z.eqb_refl. split; [auto|lia].
      * destruct (H2 i s' Hr). split; [auto|lia].
    + intros s'. unfold upd. destruct (Nat.eqb_spec s' s) as [->|N].
      * right. unfold own'. rewrite Z.eqb_refl. split; [auto|lia].
      * destruct (H3 s') as [E'|[E' L]]; [auto|right; split; [auto|lia]].
    + intros s'. unfold upd. destruct (Nat.eqb_spec s' s) as [->|N]; auto.
    + intros r s'. unfold upd. destruct (Nat.eqb_spec s' s) as [->|N]; eauto.
    + intros o i s' Hin Hm. destruct (H6 o i s' Hin Hm). split; [auto|lia].
Qed.

Ltac osame := eapply owner_same; [| |eassumption]; [first [eassumption|reflexivity]|]; try eassumption.
Lemma owner_put_base own y tr s x : owner_inv own y tr -> reg y (i_sid x) = Some s ->
  owner_inv own (fst (put_base y s x)) (tr ++ snd (put_base y s x)).
Proof.
  intros [H1 H2 H3 H4 H5 H6] HR. unfold put_base.
  destruct (_ || _); sq; (constructor; sq; auto; intros o i s' Hin Hm; apply in_app_iff in Hin as [Hin|[<-|[]]];
    [now apply (H6 o)|]; destruct Hm as [<- <-]; now apply H2).
Qed.

Lemma owner_put own y tr x : owner_inv own y tr ->
  owner_inv own (fst (put_response y x)) (tr ++ snd (put_response y x)).
Proof.
  intros H. unfold put_response. destruct (Z.eqb _ _).
  { osame. intros e [<-|[]] i s []. }
  destruct (reg y (i_sid x)) as [s|] eqn:E.
  2:{ osame. intros e [<-|[]] i s []. }
  destruct (handler y s); [|now apply owner_put_base].
  destruct H as [H1 H2 H3 H4 H5 H6]. constructor; sq; auto.
  intros o i s' Hin Hm. apply in_app_iff in Hin as [Hin|[<-|[]]]; [now apply (H6 o)|].
  destruct Hm as [<- <-]. now apply H2.
Qed.

Lemma owner_done own y tr r : owner_inv own y tr ->
  owner_inv own (fst (item_done y r)) (tr ++ snd (item_done y r)).
Proof.
  intros H. unfold item_done. change (fifo (set_flags y false false)) with (fifo y).
  destruct (fifo y) as [|x f].
  { osame. intros e [<-|[]] i s []. }
  match goal with |- context[set_wait ?a ?b ?c ?d] => set (y1 := set_wait a b c d) in * end.
  assert (HX : owner_inv own y1 (tr ++ [OTaken x])).
  { osame. intros e [<-|[]] i s []. }
  clearbody y1. clear H. destruct r as [t|].
  - pose proof (owner_put own y1 _ t HX) as H. destruct (put_response y1 t) as [y2 o]. sq.
    rewrite <- app_assoc in H. cbn [app] in H.
    destruct (existsb _ o); sq; [exact H|].
    change (tr ++ OTaken x :: o ++ ?z) with (tr ++ (OTaken x :: o) ++ z). rewrite app_assoc.
    osame. destruct (lock_first y2); intros e Hin i s; [destruct Hin as [<-|[]]; auto|destruct Hin].
  - cbn [existsb app fst snd]. change (OTaken x :: ?z) with ([OTaken x] ++ z). rewrite app_assoc.
    osame. destruct (lock_first y1); intros e Hin i s; [destruct Hin as [<-|[]]; auto|destruct Hin].
Qed.

Lemma owner_scan own y tr p s t : owner_inv own y tr ->
  owner_inv own (fst (get_scan y p s t)) (tr ++ snd (get_scan y p s t)).
Proof.
  intros H. unfold get_scan. destruct (Z.eqb _ _).
  - destruct (respq y s) as [|z zs]; (osame; intros e [<-|[]] j s' []).
  - destruct (take_tid _ _) as [[z zs]|]; (osame); [intros e [<-|[]] j s' []|intros e []].
Qed.

Lemma owner_tsel own anc y tr rel rnd : owner_inv own y tr ->
  owner_inv own (fst (fst (try_select anc y rel rnd))) (tr ++ snd (fst (try_select anc y rel rnd))).
Proof.
  intros H. unfold try_select. destruct (choose _ _ _ _) as [|i| |]; sq.
  - osame. intros e [].
  - unfold select. destruct (nth_error _ _); sq; (osame); [intros e [<-|[]] j s' []|intros e []].
  - osame. intros e [<-|[]] j s' [].
  - osame. intros e [<-|[]] j s' [].
Qed.

Lemma owner_flags own y tr a b : owner_inv own y tr -> owner_inv own (set_flags y a b) tr.
Proof. intros [H1 H2 H3 H4 H5 H6]. constructor; sq; auto. Qed.

Lemma remove_core anc y s : let y' := fst (remove_seq anc y s) in
  next_sid y' = next_sid y /\ sid y' = sid y /\ sem y' = sem y /\ waiting y' = waiting y
  /\ reg y' = fun i => if Z.eqb i (sid y s) then None else reg y i.
Proof.
  unfold remove_seq. sq. destruct (filter (gone anc y s) (arbq y)), (filter _ (locks y)); repeat split; reflexivity.
Qed.

Lemma owner_step anc own y tr l : owner_inv own y tr ->
  exists own', owner_inv own' (fst (step anc y l)) (tr ++ snd (step anc y l)).
Proof.
  intros H.
  assert (HQ : forall y' o, ocore y' = ocore y -> (forall e, In e o -> forall i s, ~ mentions i s e) ->
     exists own', owner_inv own' y' (tr ++ o)) by (intros; exists own; osame).
  assert (H0 : forall y', ocore y' = ocore y -> exists own', owner_inv own' y' (tr ++ []))
    by (intros; apply HQ; [auto|intros ? []]).
  destruct l as [s0|s0 lk|r0|s0 t q|s0|s0| |s0|a|k|rel rnd|rel rnd| | |rel rnd|rsp|x|q s0 t|q|s0 d|s0 b];
    cbn [step]; try (now apply H0).
  - unfold start. sq.
    match goal with |- context[register ?z s0] => set (y1 := z) end.
    assert (HR : (sid y1 s0 >? 0)%Z = false) by (unfold y1; sq; now rewrite upd_eq).
    unfold register. rewrite HR.
    set (own' := fun i => if Z.eqb i (next_sid y) then s0 else own i). exists own'.
    assert (H' : owner_inv own' y tr).
    { apply (owner_new own own' y tr H). intros i Hi. unfold own'. destruct (Z.eqb_spec i (next_sid y)); [lia|auto]. }
    destruct H' as [H1 H2 H3 H4 H5 H6].
    constructor; unfold y1; sq; try lia.
    + intros i s' Hr. destruct (Z.eqb_spec i (next_sid y)) as [->|N].
      * injection Hr as <-. unfold own'. rewrite Z.eqb_refl. split; [auto|lia].
      * destruct (H2 i s' Hr). split; [auto|lia].
    + intros s'. unfold upd. destruct (Nat.eqb_spec s' s0) as [->|N].
      * right. unfold own'. rewrite Z.eqb_refl. split; [auto|lia].
      * destruct (H3 s') as [E'|[E' L]]; [auto|right; split; [auto|lia]].
    + intros s'. unfold upd. destruct (Nat.eqb_spec s' s0) as [->|N]; auto.
    + intros r s'. unfold upd. destruct (Nat.eqb_spec s' s0) as [->|N]; eauto.
    + intros o i s' Hin Hm. apply in_app_iff in Hin as [Hin|[<-|[]]]; [|destruct Hm].
      destruct (H6 o i s' Hin Hm). split; [auto|lia].
  - unfold request. destruct (owner_register own y tr s0 H) as (own' & [H1 H2 H3 H4 H5 H6] & HP).
    exists own'. constructor; sq; auto.
    + intros r s Hin. apply in_app_iff in Hin as [Hin|[Hin|[]]]; [eauto|]. injection Hin as <- <-. auto.
    + intros o i s Hin Hm. apply in_app_iff in Hin as [Hin|Hin]; [eauto|]. exfalso.
      destruct lk; cbn in Hin; [destruct Hin as [<-|[<-|[]]]|destruct Hin as [<-|[]]]; destruct Hm.
  - unfold granted. destruct (find _ _) as [[r' s]|] eqn:F; [|now apply H0].
    destruct (existsb _ _); [|now apply H0]. apply find_some in F as [F _].
    exists own. destruct H as [H1 H2 H3 H4 H5 H6]. constructor; sq; auto.
    + intros s'. unfold upd. destruct (Nat.eqb_spec s' s) as [->|N]; [|auto]. intros _. eauto.
    + intros r s' Hin. apply filter_In in Hin as [Hin _]. eauto.
    + intros o i s' Hin Hm. apply in_app_iff in Hin as [Hin|[<-|[]]]; [eauto|destruct Hm].
  - unfold send_request. destruct (Z.ltb _ _) eqn:EL.
    { apply HQ; [auto|]. intros e [<-|[]] i s []. }
    apply Z.ltb_ge in EL. exists own. destruct H as [H1 H2 H3 H4 H5 H6]. sq.
    assert (HS : forall s', (1 <= upd (sem y) s0 (sem y s0 - 1) s')%Z -> (0 < sid y s')%Z).
    { intros s'. unfold upd. destruct (Nat.eqb_spec s' s0) as [->|N]; auto. }
    destruct (fifo y); sq; constructor; sq; auto.
    + intros o i s' Hin Hm. apply in_app_iff in Hin as [Hin|[<-|Hin]]; [eauto| |].
      * destruct Hm as [<- <-]. cbn [i_sid]. pose proof (H4 s0 EL). destruct (H3 s0) as [E|E]; [lia|auto].
      * exfalso. destruct (lock_first _); [destruct Hin as [<-|[]]; destruct Hm|destruct Hin].
    + intros o j s' Hin Hm. apply in_app_iff in Hin as [Hin|[<-|[<-|[]]]]; [eauto|destruct Hm|destruct Hm].
  - destruct (iwait y s0) as [[]|]; try (now apply H0).
    destruct (Z.eqb _ _); [|now apply H0]. apply HQ; [auto|]. intros e [<-|[]] i s [].
  - exists own. destruct H as [H1 H2 H3 H4 H5 H6].
    destruct (remove_core anc y s0) as (E1 & E2 & E3 & E4 & E5).
    constructor; rewrite ?E1, ?E2, ?E3, ?E4, ?E5; auto.
    + intros i s. destruct (Z.eqb i (sid y s0)); [discriminate|auto].
    + intros o i s Hin Hm. apply in_app_iff in Hin as [Hin|Hin]; [eauto|].
      apply in_map_iff in Hin as (? & <- & _). destruct Hm.
  - destruct (requested y).
    { apply HQ; [auto|]. destruct (called y); intros e Hin i s; [destruct Hin as [<-|[]]; auto|destruct Hin]. }
    assert (HE : owner_inv own y (tr ++ if called y then [OErrTwice] else [])).
    { osame. destruct (called y); intros e Hin i s; [destruct Hin as [<-|[]]; auto|destruct Hin]. }
    pose proof (owner_tsel own anc y _ rel rnd HE) as HT.
    destruct (try_select anc y rel rnd) as [[y1 o] go]. sq. exists own. rewrite app_assoc.
    destruct go; [now apply owner_flags|exact HT].
  - destruct (requested y); [now apply H0|]. pose proof (owner_tsel own anc y _ rel rnd H) as HT.
    destruct (try_select anc y rel rnd) as [[y1 o] go]. sq. exists own.
    destruct go; [now apply owner_flags|exact HT].
  - destruct (requested y); [|now apply H0]. destruct (fifo y); [now apply H0|].
    apply HQ; [auto|]. intros e [<-|[]] i' s [].
  - destruct (requested y); [|now apply H0]. destruct (fifo y) as [|x f]; [now apply H0|].
    assert (HE : owner_inv own y (tr ++ [OItem x])).
    { osame. intros e [<-|[]] i' s []. }
    pose proof (owner_done own y _ None HE) as HT. destruct (item_done y None) as [y1 o]. sq. exists own.
    change (tr ++ OItem x :: o) with (tr ++ [OItem x] ++ o). now rewrite app_assoc.
  - destruct (called y); [apply HQ; [auto|]; intros e [<-|[]] i' s []|].
    pose proof (owner_tsel own anc y _ rel rnd H) as HT. unfold try_select in HT.
    destruct (choose anc y rel rnd) as [|i| |]; try (now apply H0);
      try (apply HQ; [auto|]; intros e [<-|[]] i' s []).
    destruct (select y i) as [y1 o]. sq. exists own. now apply owner_flags.
  - exists own. now apply owner_done.
  - exists own. now apply owner_put.
  - unfold get_call. destruct (respq y s0); [now apply H0|]. exists own. now apply owner_scan.
  - unfold get_wake. destruct (getters y q) as [g|]; [|now apply H0].
    destruct (g_size g).
    + destruct (Nat.eqb _ _); [now apply H0|]. exists own. now apply owner_scan.
    + destruct (respq y (g_seq g)); [now apply H0|]. exists own. now apply owner_scan.
Qed.

Lemma owner_run anc ls : exists own, owner_inv own (fst (run_machine (step anc) sqr0 ls)) (snd (run_machine (step anc) sqr0 ls)).
Proof.
  refine (run_machine_inv (step anc) (fun y tr => exists own, owner_inv own y tr) _ ls sqr0 [] _).
  - intros y tr l [own H]. eapply owner_step; eauto.
  - exists (fun _ => 0). constructor; cbn; try lia; auto; try tauto; try discriminate.
Qed.

(** ** Frames: what each call leaves alone *)
Ltac open_step := cbn [step]; unfold start, request, granted, send_request, item_done, put_response, put_base,
  get_call, get_wake, get_scan, try_select, select, register; sq.
Ltac brk := repeat (match goal with |- context[match ?x with _ => _ end] =>
  lazymatch x with context[match _ with _ => _ end] => fail | _ => idtac end;
  first [ is_var x; destruct x | destruct x eqn:? ] end; sq).

Lemma step_ids anc y l : match l with LStart _ | LRequest _ _ | LExit _ => True | _ =>
  next_sid (fst (step anc y l)) = next_sid y /\ reg (fst (step anc y l)) = reg y /\ sid (fst (step anc y l)) = sid y end.
Proof. destruct l; auto; open_step; brk; auto. Qed.

Lemma step_getters anc y l : match l with LGet _ _ _ | LGetWake _ => True | LExit _ => True | _ =>
  getters (fst (step anc y l)) = getters y end.
Proof. destruct l; auto; open_step; brk; auto. Qed.
Lemma exit_getters anc y s : getters (fst (step anc y (LExit s))) = getters y.
Proof. cbn [step]. unfold remove_seq. sq. destruct (filter (gone anc y s) (arbq y)), (filter _ (locks y)); reflexivity. Qed.

Lemma step_sent anc y l s x : In (OSent s x) (snd (step anc y l)) ->
  i_sid x = sid y s /\ (1 <= sem y s)%Z /\ (exists t p, l = LSend s t p).
Proof.
  destruct l as [s0|s0 lk|r0|s0 t p|s0|s0| |s0|a|k|rel rnd|rel rnd| | |rel rnd|rsp|z|q s0 t|q|s0 d|s0 b].
  4:{ cbn [step]. unfold send_request. destruct (Z.ltb _ _) eqn:E; sq; [intros [H|[]]; discriminate|].
      apply Z.ltb_ge in E. destruct (fifo y); sq; [|intros [H|[H|[]]]; discriminate].
      intros [H|H].
      - injection H as <- <-. cbn [i_sid]. eauto.
      - destruct (lock_first _); cbn in H; intuition discriminate. }
  7:{ cbn [step]. unfold remove_seq. sq. rewrite in_map_iff. intros (? & ? & _). discriminate. }
  all: open_step; brk; cbn [existsb orb In app fst snd]; try (intros H; exfalso; rewrite ?in_app_iff in H; cbn [In app] in H; intuition discriminate).
Qed.

Lemma register_reg y s i s' : reg y i = Some s' -> (i < next_sid y)%Z -> reg (register y s) i = Some s'.
Proof.
  intros H L. unfold register. destruct (Z.gtb _ _); [auto|]. sq. destruct (Z.eqb_spec i (next_sid y)); [lia|auto].
Qed.

(** A sequence that has not ended stays registered. *)
Definition live (s : nat) (y : sqr) (tr : list out) : Prop :=
  ((0 < sid y s)%Z -> reg y (sid y s) = Some s) /\ forall x, In (OSent s x) tr -> reg y (i_sid x) = Some s.

Lemma live_step anc own s y tr l : owner_inv own y tr -> live s y tr -> l <> LExit s ->
  live s (fst (step anc y l)) (tr ++ snd (step anc y l)).
Proof.
  intros HO [HL1 HL2] HN.
  assert (HS : forall x, In (OSent s x) (tr ++ snd (step anc y l)) -> reg y (i_sid x) = Some s).
  { intros x Hin. apply in_app_iff in Hin as [Hin|Hin]; [auto|].
    apply step_sent in Hin as (-> & H1 & _). apply HL1. now apply (oi_sem _ _ _ HO). }
  pose proof (step_ids anc y l) as HI.
  destruct l as [s0|s0 lk|r0|s0 t p|s0|s0| |s0|a|k|rel rnd|rel rnd| | |rel rnd|rsp|z|q s0 t|q|s0 d|s0 b];
    try (destruct HI as (E1 & E2 & E3); split; [rewrite E2, E3; exact HL1|rewrite E2; exact HS]).
  - cbn [step] in *. unfold start in *. sq. unfold register. sq. rewrite upd_eq. cbn [Z.gtb Z.compare]. sq. split.
    + sq. unfold upd. destruct (Nat.eqb_spec s s0) as [->|N]; [now rewrite Z.eqb_refl|].
      intros H. specialize (HL1 H). destruct (Z.eqb_spec (sid y s) (next_sid y)) as [E|E]; [|auto].
      destruct (oi_reg _ _ _ HO _ _ HL1). lia.
    + intros x Hin. specialize (HS x Hin). sq. destruct (Z.eqb_spec (i_sid x) (next_sid y)) as [E|E]; [|auto].
      destruct (oi_reg _ _ _ HO _ _ HS). lia.
  - cbn [step] in *. unfold request in *. sq. split.
    + unfold register. destruct (Z.gtb (sid y s0) 0); sq; [auto|]. unfold upd.
      destruct (Nat.eqb_spec s s0) as [->|N]; [now rewrite Z.eqb_refl|].
      intros H. specialize (HL1 H). destruct (Z.eqb_spec (sid y s) (next_sid y)) as [E|E]; [|auto].
      destruct (oi_reg _ _ _ HO _ _ HL1). lia.
    + intros x Hin. sq. specialize (HS x Hin). apply register_reg; [auto|]. now destruct (oi_reg _ _ _ HO _ _ HS).
  - cbn [step] in *. destruct (remove_core anc y s0) as (E1 & E2 & E3 & E4 & E5).
    assert (HD : forall i, reg y i = Some s -> Z.eqb i (sid y s0) = false).
    { intros i Hi. apply Z.eqb_neq. intros ->. destruct (oi_reg _ _ _ HO _ _ Hi) as [EO LO].
      destruct (oi_sid _ _ _ HO s0) as [E|[E _]]; [lia|]. apply HN. congruence. }
    split; [rewrite E2, E5|rewrite E5]; cbv beta.
    + intros H. specialize (HL1 H). now rewrite (HD _ HL1).
    + intros x Hin. specialize (HS x Hin). now rewrite (HD _ HS).
Qed.

Lemma live_run anc s ls : ~ In (LExit s) ls ->
  live s (fst (run_machine (step anc) sqr0 ls)) (snd (run_machine (step anc) sqr0 ls)).
Proof.
  induction ls as [|l ls IH] using rev_ind; intros HN.
  - split; cbn; [lia|tauto].
  - rewrite run_machine_app. cbn [run_machine].
    destruct (owner_run anc ls) as [own HO].
    assert (IH' : live s (fst (run_machine (step anc) sqr0 ls)) (snd (run_machine (step anc) sqr0 ls))).
    { apply IH. intros H. apply HN. apply in_app_iff. auto. }
    pose proof (live_step anc own s _ _ l HO IH') as H.
    destruct (step anc (fst (run_machine (step anc) sqr0 ls)) l) as [y1 o]. cbn [fst snd] in *.
    rewrite app_nil_r. apply H. intros ->. apply HN. apply in_app_iff. right. now left.
Qed.

(** ** get_response *)
Definition took (t : Z) (q : list item) (x : item) (q' : list item) : Prop :=
  (t = (-1)%Z /\ q = x :: q') \/
  (t <> (-1)%Z /\ exists a b, q = a ++ x :: b /\ q' = a ++ b /\ i_tid x = t /\ forall z, In z a -> i_tid z <> t).

Lemma scan_spec y p s t p' s' x : In (OGot p' s' x) (snd (get_scan y p s t)) ->
  p' = p /\ s' = s /\ took t (respq y s) x (respq (fst (get_scan y p s t)) s).
Proof.
  unfold get_scan. destruct (Z.eqb_spec t (-1)) as [->|N].
  - destruct (respq y s) as [|z q] eqn:E; sq; [intros [H|[]]; discriminate|].
    intros [H|[]]. injection H as <- <- <-. split; [auto|]. split; [auto|]. left. rewrite upd_eq. auto.
  - destruct (take_tid t (respq y s)) as [[z q]|] eqn:E; sq; [|intros []].
    intros [H|[]]. injection H as <- <- <-. split; [auto|]. split; [auto|]. right. rewrite upd_eq.
    split; [auto|]. apply take_tid_spec in E. exact E.
Qed.

Lemma scan_getters y p s t : (t = (-1)%Z -> respq y s <> []) ->
  forall p' g, getters (fst (get_scan y p s t)) p' = Some g ->
  (p' <> p /\ getters y p' = Some g) \/ (p' = p /\ g_seq g = s /\ g_tid g = t /\ t <> (-1)%Z).
Proof.
  intros HN p' g. unfold get_scan. destruct (Z.eqb_spec t (-1)) as [->|N].
  - destruct (respq y s) eqn:E; [destruct (HN eq_refl eq_refl)|]. sq. unfold upd.
    destruct (Nat.eqb_spec p' p); [discriminate|auto].
  - destruct (take_tid t (respq y s)) as [[z q]|]; sq; unfold upd;
      (destruct (Nat.eqb_spec p' p); [|now left]); [discriminate|].
    intros [= <-]. cbn. auto.
Qed.

Fixpoint asked (p : nat) (ls : list lab) (d : option (nat * Z)) : option (nat * Z) :=
  match ls with
  | [] => d
  | LGet p' s t :: ls' => asked p ls' (if Nat.eqb p' p then Some (s, t) else d)
  | _ :: ls' => asked p ls' d
  end.
Lemma asked_app p a b d : asked p (a ++ b) d = asked p b (asked p a d).
Proof. revert d. induction a as [|l a IH]; intros d; cbn; [auto|]. destruct l; auto. Qed.

Definition ginv (y : sqr) (ls : list lab) : Prop :=
  forall p g, getters y p = Some g -> asked p ls None = Some (g_seq g, g_tid g) /\
    (g_tid g = (-1)%Z -> g_size g = None).

Lemma ginv_step anc y ls l : ginv y ls -> ginv (fst (step anc y l)) (ls ++ [l]).
Proof.
  intros HG. pose proof (step_getters anc y l) as HS.
  destruct l as [s0|s0 lk|r0|s0 t p|s0|s0| |s0|a|k|rel rnd|rel rnd| | |rel rnd|rsp|z|q s0 t|q|s0 d|s0 b];
    try (intros p1 g Hg; rewrite asked_app; cbn [asked]; rewrite HS in Hg; now apply HG).
  - intros p1 g Hg. rewrite asked_app. cbn [asked]. rewrite exit_getters in Hg. now apply HG.
  - intros p1 g Hg. rewrite asked_app. cbn [asked]. cbn [step] in Hg. unfold get_call in Hg.
    destruct (respq y s0) as [|x r] eqn:E.
    + sq. unfold upd in Hg. rewrite Nat.eqb_sym in Hg. destruct (Nat.eqb q p1).
      * injection Hg as <-. cbn. auto.
      * now apply HG.
    + assert (HNE : t = (-1)%Z -> respq y s0 <> []) by (intros _; rewrite E; discriminate).
      destruct (scan_getters y q s0 t HNE p1 g Hg) as [[N Hg']|(-> & <- & <- & N)].
      * destruct (Nat.eqb_spec q p1); [congruence|]. now apply HG.
      * rewrite Nat.eqb_refl. split; [auto|]. tauto.
  - intros p1 g Hg. rewrite asked_app. cbn [asked]. cbn [step] in Hg. unfold get_wake in Hg.
    destruct (getters y q) as [g0|] eqn:EG; [|now apply HG].
    destruct (HG q g0 EG) as [HA HM].
    assert (HC : forall HNE : g_tid g0 = (-1)%Z -> respq y (g_seq g0) <> [],
      getters (fst (get_scan y q (g_seq g0) (g_tid g0))) p1 = Some g ->
      asked p1 ls None = Some (g_seq g, g_tid g) /\ (g_tid g = (-1)%Z -> g_size g = None)).
    { intros HNE Hg'. destruct (scan_getters y q _ _ HNE p1 g Hg') as [[N Hg2]|(-> & -> & -> & N)].
      - now apply HG.
      - split; [auto|]. tauto. }
    destruct (g_size g0) as [n|] eqn:ES.
    + destruct (Nat.eqb _ _); [now apply HG|]. apply HC; [|exact Hg]. intros E. specialize (HM E). discriminate.
    + destruct (respq y (g_seq g0)) eqn:E; [now apply HG|]. apply HC; [|exact Hg]. discriminate.
Qed.

Lemma ginv_run anc ls : ginv (fst (run_machine (step anc) sqr0 ls)) ls.
Proof.
  induction ls as [|l ls IH] using rev_ind; [intros p g H; discriminate|].
  rewrite run_machine_app. cbn [run_machine]. pose proof (ginv_step anc _ ls l IH) as H.
  destruct (step anc (fst (run_machine (step anc) sqr0 ls)) l) as [y1 o]. exact H.
Qed.

Lemma got_spec anc y ls l p s x : ginv y ls -> In (OGot p s x) (snd (step anc y l)) ->
  exists t, asked p (ls ++ [l]) None = Some (s, t) /\ took t (respq y s) x (respq (fst (step anc y l)) s).
Proof.
  intros HG.
  destruct l as [s0|s0 lk|r0|s0 t q|s0|s0| |s0|a|k|rel rnd|rel rnd| | |rel rnd|rsp|z|q s0 t|q|s0 d|s0 b].
  8:{ cbn [step]. unfold remove_seq. sq. rewrite in_map_iff. intros (? & ? & _). discriminate. }
  17:{ cbn [step]. unfold get_call. destruct (respq y s0) eqn:E; [intros []|]. intros H.
       apply scan_spec in H as (-> & -> & H). rewrite E in H. exists t. rewrite asked_app. cbn [asked].
       rewrite Nat.eqb_refl, E. auto. }
  17:{ cbn [step]. unfold get_wake. destruct (getters y q) as [g|] eqn:EG; [|intros []].
       destruct (HG q g EG) as [HA _].
       assert (HC : In (OGot p s x) (snd (get_scan y q (g_seq g) (g_tid g))) ->
         exists t, asked p (ls ++ [LGetWake q]) None = Some (s, t) /\
           took t (respq y s) x (respq (fst (get_scan y q (g_seq g) (g_tid g))) s)).
       { intros H. apply scan_spec in H as (-> & -> & H). exists (g_tid g). rewrite asked_app. cbn [asked]. auto. }
       destruct (g_size g).
       - destruct (Nat.eqb _ _); [intros []|exact HC].
       - destruct (respq y (g_seq g)); [intros []|exact HC]. }
  all: open_step; brk; cbn [existsb orb In app fst snd]; try (intros H; exfalso; rewrite ?in_app_iff in H; cbn [In app] in H; intuition discriminate).
Qed.

Lemma nolock_run anc ls : (forall r s, ~ In (OLockRequested r s) (snd (run_machine (step anc) sqr0 ls))) ->
  forall q, In q (arbq (fst (run_machine (step anc) sqr0 ls))) -> r_kind q = KReq.
Proof.
  induction ls as [|l ls IH] using rev_ind; intros HN; [intros q []|].
  rewrite run_machine_app in *. cbn [run_machine] in *.
  set (y := fst (run_machine (step anc) sqr0 ls)) in *.
  pose proof (step_arb anc y l) as HS.
  destruct (step anc y l) as [y1 o]. cbn [fst snd] in *. rewrite app_nil_r in HN.
  apply (astep_nolock (core y) (ae o) (core y1) HS).
  - intros r s H. apply filter_In in H as [H _]. apply (HN r s). apply in_app_iff. auto.
  - apply IH. intros r s H. apply (HN r s). apply in_app_iff. auto.
Qed.

Lemma avail_some anc y rel q i z : In z q -> r_kind z = KReq -> is_blocked anc y (r_seq z) = false ->
  rel (r_seq z) = true -> exists k, In k (avail anc y rel i q) /\ nth_error q (k - i) = Some z /\ i <= k.
Proof.
  revert i. induction q as [|w q IH]; intros i Hin HK HB HR; [destruct Hin|]. cbn [avail].
  destruct Hin as [->|Hin].
  - rewrite HK, HB, HR. cbn. exists i. rewrite Nat.sub_diag. auto.
  - destruct (IH (S i) Hin HK HB HR) as (k & H1 & H2 & H3). exists k.
    replace (k - i) with (S (k - S i)) by lia. split; [|split; [exact H2|lia]].
    destruct (r_kind w); [|auto]. destruct (_ && _); [right|]; auto.
Qed.

Lemma select_out y i : snd (select y i) = match nth_error (arbq y) i with
  | Some r => [OSelected (r_id r) (r_seq r)] | None => [] end.
Proof. unfold select. destruct (nth_error _ _); auto. Qed.

Lemma lock_first_false y : (forall q, In q (arbq y) -> r_kind q = KReq) -> lock_first y = false.
Proof. intros H. unfold lock_first. destruct (arbq y) as [|r q]; [auto|]. now rewrite (H r (or_introl eq_refl)). Qed.

Lemma in_reqs r s q : In (r, s) (reqs q) -> exists z, In z q /\ r_kind z = KReq /\ r_id z = r /\ r_seq z = s.
Proof.
  unfold reqs. rewrite in_map_iff. intros (z & E & H). apply filter_In in H as [H HK]. injection E as <- <-.
  exists z. destruct (r_kind z); [auto|discriminate].
Qed.

(** A leading lock request stays in front unless its sequence ends, and stops everything. *)
Lemma astep_head a o b z q : astep a o b -> aq a = z :: q -> r_kind z = KLock ->
  (forall r, ~ In (ORemoved r) o) -> (forall r s, ~ In (OSelected r s) o) -> exists q', aq b = z :: q'.
Proof.
  intros H E HK HR HS. destruct H as [a k|a s i|a s i|a r s Hw Hc|a i r Hn HKr|a P]; cbn [aq]; try rewrite E; eauto.
  - eexists. reflexivity.
  - eexists. reflexivity.
  - exfalso. apply (HS (r_id r) (r_seq r)). now left.
  - cbn [filter]. destruct (P z) eqn:EP; [|eexists; reflexivity].
    exfalso. apply (HR (r_id z)). rewrite E. cbn [filter]. rewrite EP. now left.
Qed.

Lemma lock_no_sel anc y l r s : lock_first y = true -> ~ In (OSelected r s) (snd (step anc y l)).
Proof.
  intros HL H. apply sel_choose in H as (rel & rnd & i & q & _ & HC & _). unfold choose in HC. rewrite HL in HC. discriminate.
Qed.

Lemma lock_stuck anc ls y : lock_first y = true ->
  (forall r, ~ In (ORemoved r) (snd (run_machine (step anc) y ls))) ->
  lock_first (fst (run_machine (step anc) y ls)) = true
  /\ forall r s, ~ In (OSelected r s) (snd (run_machine (step anc) y ls)).
Proof.
  revert y. induction ls as [|l ls IH]; intros y HL HN; cbn [run_machine] in *; [auto|].
  pose proof (step_arb anc y l) as HS. pose proof (lock_no_sel anc y l) as HQ.
  destruct (step anc y l) as [y1 o]. cbn [fst snd] in *.
  destruct (run_machine (step anc) y1 ls) as [y2 o2] eqn:E2. cbn [fst snd] in *.
  assert (HL1 : lock_first y1 = true).
  { unfold lock_first in HL. destruct (arbq y) as [|z q] eqn:EA; [discriminate|].
    destruct (r_kind z) eqn:HK; [discriminate|].
    destruct (astep_head _ _ _ z q HS) as [q' Hq']; auto.
    - intros r H. apply filter_In in H as [H _]. apply (HN r). apply in_app_iff. auto.
    - intros r s H. apply filter_In in H as [H _]. unfold lock_first in HQ. rewrite EA, HK in HQ. now apply (HQ r s).
    - cbn [core aq] in Hq'. unfold lock_first. now rewrite Hq', HK. }
  specialize (IH y1 HL1). rewrite E2 in IH. cbn [fst snd] in IH.
  destruct IH as [IH1 IH2]. { intros r H. apply (HN r). apply in_app_iff. auto. }
  split; [auto|]. intros r s H. apply in_app_iff in H as [H|H]; [now apply (HQ r s)|now apply (IH2 r s)].
Qed.

(** ** wait_for_item_done *)
Lemma step_wait anc y l : match l with LExit _ => True | _ =>
  (forall s, iwait (fst (step anc y l)) s <> None -> iwait y s <> None \/ l = LWaitDone s)
  /\ (done_sid (fst (step anc y l)) = done_sid y \/ done_sid (fst (step anc y l)) = (-1)%Z
      \/ exists x, In (OTaken x) (snd (step anc y l)) /\ i_sid x = done_sid (fst (step anc y l))) end.
Proof.
  destruct l as [s0|s0 lk|r0|s0 t p|s0|s0| |s0|a|k|rel rnd|rel rnd| | |rel rnd|rsp|z|q s0 t|q|s0 d|s0 b]; auto;
    try (open_step; brk; cbn [existsb orb In app fst snd]; sq; (split;
      [intros s1; repeat (match goal with |- context[match ?x with _ => _ end] => destruct x eqn:? end); try (left; congruence); auto; try congruence
      |first [left; reflexivity
      |right; right; eexists; split; [left; reflexivity|reflexivity]
      |right; right; eexists; split; [right; left; reflexivity|reflexivity]|right; left; reflexivity]])).
  all: unfold upd; destruct (Nat.eqb_spec s1 s0) as [->|N]; auto; intros H; try congruence; left; congruence.
Qed.

Lemma exit_wait anc y s : (forall s1, iwait (fst (step anc y (LExit s))) s1 <> None -> iwait y s1 <> None)
  /\ done_sid (fst (step anc y (LExit s))) = done_sid y.
Proof.
  cbn [step]. unfold remove_seq. sq. destruct (filter (gone anc y s) (arbq y)), (filter _ (locks y)); sq; (split; [|auto]); auto;
    intros s1; destruct (iwait y s1); congruence.
Qed.

Lemma lab_wait_dec s l : l = LWaitDone s \/ l <> LWaitDone s.
Proof. destruct l; try (right; discriminate). destruct (Nat.eq_dec s0 s) as [->|N]; [now left|right; congruence]. Qed.

(** While a process waits, the id of the last completed item, if any, is that of an item
    completed since its call. *)
Lemma wait_run anc ls s : iwait (fst (run_machine (step anc) sqr0 ls)) s <> None ->
  exists pre mid, ls = pre ++ LWaitDone s :: mid /\ ~ In (LWaitDone s) mid
    /\ ((0 < done_sid (fst (run_machine (step anc) sqr0 ls)))%Z ->
        exists x, In (OTaken x) (snd (run_machine (step anc) (fst (run_machine (step anc) sqr0 (pre ++ [LWaitDone s]))) mid))
          /\ i_sid x = done_sid (fst (run_machine (step anc) sqr0 ls))).
Proof.
  induction ls as [|l ls IH] using rev_ind; [intros H; now destruct H|].
  rewrite run_machine_app. cbn [run_machine].
  set (y := fst (run_machine (step anc) sqr0 ls)) in *.
  destruct (step anc y l) as [y1 o] eqn:ES. cbn [fst snd]. intros HW.
  destruct (lab_wait_dec s l) as [->|HL].
  { exists ls, []. split; [reflexivity|]. split; [intros []|]. cbn [step] in ES. injection ES as <- <-. sq. lia. }
  assert (HF : iwait y s <> None /\ (done_sid y1 = done_sid y \/ done_sid y1 = (-1)%Z \/
              exists x, In (OTaken x) o /\ i_sid x = done_sid y1)).
  { pose proof (step_wait anc y l) as H1. pose proof (fun s0 => exit_wait anc y s0) as H2.
    destruct l; try (rewrite ES in H1; cbn [fst snd] in H1; destruct H1 as [H1 H3]; split; [|exact H3];
      destruct (H1 s HW) as [H4|H4]; [exact H4|congruence]).
    specialize (H2 s0). rewrite ES in H2. cbn [fst] in H2. destruct H2 as [H2 H3]. split; [auto|]. now left. }
  destruct HF as [HY HD]. destruct (IH HY) as (pre & mid & E & HN & HT).
  exists pre, (mid ++ [l]). split; [rewrite E, <- app_assoc; reflexivity|]. split.
  { intros H. apply in_app_iff in H as [H|[H|[]]]; [auto|congruence]. }
  intros HP. rewrite run_machine_app. cbn [run_machine].
  assert (EY : fst (run_machine (step anc) (fst (run_machine (step anc) sqr0 (pre ++ [LWaitDone s]))) mid) = y).
  { unfold y. rewrite E. replace (pre ++ LWaitDone s :: mid) with ((pre ++ [LWaitDone s]) ++ mid) by (now rewrite <- app_assoc).
    now rewrite (run_machine_app (step anc) sqr0 (pre ++ [LWaitDone s]) mid). }
  rewrite EY, ES. cbn [fst snd]. rewrite app_nil_r.
  destruct HD as [HD|[HD|(x & Hx & HE)]].
  - rewrite HD in *. destruct (HT HP) as (x & Hx & HE). exists x. split; [apply in_app_iff; auto|exact HE].
  - lia.
  - exists x. split; [apply in_app_iff; auto|exact HE].
Qed.
