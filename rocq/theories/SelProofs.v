From Coq Require Import ZArith List Bool Arith Lia.
From Verif Require Import Prelude SeqrModel SeqrSpec SeqrProofs SelModel SelSpec.
Import ListNotations.
Local Open Scope nat_scope.

Ltac sl := cbn [sy lsize asize wst drv zero one set_sy set_drv set_wst set_asize set_zero wake
  update_lists fst snd] in *.

Lemma evs_app a b : evs (a ++ b) = evs a ++ evs b.
Proof. unfold evs. apply flat_map_app. Qed.
Lemma evs_map o : evs (map Ev o) = o.
Proof. induction o as [|x o IH]; [reflexivity|]. cbn [map evs flat_map app]. now f_equal. Qed.

Lemma flags_core k s : core (sy (flags k s)) = core (sy s).
Proof. now destruct k. Qed.
Lemma flags_rest k s : lsize (flags k s) = lsize s /\ asize (flags k s) = asize s /\ wst (flags k s) = wst s
  /\ drv (flags k s) = drv s /\ locks (sy (flags k s)) = locks (sy s) /\ arb (sy (flags k s)) = arb (sy s).
Proof. now destruct k. Qed.

Lemma sstep_arb anc s l :
  astep (core (sy s)) (ae (evs (snd (sstep anc s l)))) (core (sy (fst (sstep anc s l)))).
Proof.
  assert (Same : forall y o, core y = core (sy s) -> ae o = [] -> astep (core (sy s)) (ae o) (core y)).
  { intros y o E ->. now apply astep_same. }
  destruct l as [l|r|k|rv rnd|rsp|]; cbn [sstep].
  - assert (P : passes l = true \/ (exists q lk, l = LRequest q lk) \/ (exists q, l = LExit q) \/ sstep anc s (SCore l) = (s, [])).
    { destruct l; cbn; eauto. }
    pose proof (step_arb anc (sy s) l) as H.
    destruct P as [P|[(q & lk & -> )|[(q & -> )|P]]].
    + destruct l; try discriminate P; destruct (step anc (sy s) _) as [y1 o]; cbn [passes]; sl; rewrite evs_map; exact H.
    + cbn [step] in H. destruct (request (sy s) q lk) as [y1 o]. sl. rewrite evs_map. exact H.
    + cbn [step] in H. destruct (remove_seq anc (sy s) q) as [y1 o]. sl. rewrite evs_map.
      destruct (_ + _); sl; exact H.
    + cbn [sstep] in P. rewrite P. sl. now apply Same.
  - unfold grant_run. destruct (wst s r) as [[c [|]]|]; try (sl; now apply Same).
    destruct (Nat.eqb c (lsize s)); [sl; now apply Same|].
    pose proof (step_arb anc (clear (sy s)) (LGrant r)) as H. cbn [step] in H. sl.
    destruct (granted (clear (sy s)) r) as [y1 o]. sl. destruct o as [|x o].
    + sl. now apply Same.
    + sl. rewrite evs_map. exact H.
  - unfold drv_call. destruct (drv s); try (sl; now apply Same).
    destruct k; sl.
    + destruct (_ && negb (zero s)); sl; rewrite ?flags_core; (apply Same; [now rewrite ?flags_core|now destruct (_ && _)]).
    + destruct (requested _); sl; apply Same; now rewrite ?flags_core.
    + destruct (requested _); sl; apply Same; now rewrite ?flags_core.
    + destruct (called _); sl; apply Same; now rewrite ?flags_core.
  - assert (Item : forall k, astep (core (sy s)) (ae (evs (snd (drv_item s k)))) (core (sy (fst (drv_item s k))))).
    { intros k. unfold drv_item. destruct (fifo (sy s)) as [|x f]; [destruct k; sl; now apply Same|].
      destruct k; try (sl; now apply Same).
      pose proof (item_done_same (sy s) None) as [H1 H2]. destruct (item_done (sy s) None) as [y1 o]. sl.
      apply Same; [exact H1|]. cbn [evs flat_map app]. fold (evs (map Ev o)). rewrite evs_map. exact H2. }
    unfold drv_run. destruct (drv s) as [|k|k [|]| |k]; try (sl; now apply Same); try apply Item.
    + unfold drv_choose. pose proof (try_select_arb anc (sy s) (relevant rv) rnd) as H. unfold try_select in H.
      destruct (choose anc (sy s) (relevant rv) rnd) as [|i| |]; sl; try now apply Same.
      * destruct k; sl; try (destruct (irrelevant anc (sy s) rv)); sl; now apply Same.
      * destruct (select (sy s) i) as [y1 o]. sl. rewrite flags_core, evs_map. exact H.
    + sl. destruct (Nat.eqb _ _); sl; now apply Same.
  - pose proof (item_done_same (sy s) rsp) as [H1 H2]. destruct (item_done (sy s) rsp) as [y1 o]. sl.
    apply Same; [exact H1|]. now rewrite evs_map.
  - destruct (registered (sy s)); sl; now apply Same.
Qed.

Lemma sstep_locks anc s l : locks (sy s) = [] -> locks (sy (fst (sstep anc s l))) = [].
Proof.
  intros L. destruct l as [l|r|k|rv rnd|rsp|]; cbn [sstep].
  - pose proof (step_locks anc (sy s) l L) as H.
    destruct l; cbn [passes step] in *; try (sl; exact L);
      try (match goal with |- context [let '(_, _) := ?x in _] => destruct x as [y1 o] end; sl; exact H).
    destruct (remove_seq anc (sy s) s0) as [y1 o]. sl. destruct (_ + _); sl; exact H.
  - unfold grant_run. destruct (wst s r) as [[c [|]]|]; try (sl; exact L).
    destruct (Nat.eqb c (lsize s)); [sl; exact L|].
    pose proof (step_locks anc (clear (sy s)) (LGrant r) L) as H. cbn [step] in H. sl.
    destruct (granted (clear (sy s)) r) as [y1 o]. sl. destruct o; sl; auto.
  - unfold drv_call. destruct (drv s); try (sl; exact L). destruct k; sl.
    + destruct (_ && negb (zero s)); sl; exact L.
    + destruct (requested _); sl; exact L.
    + destruct (requested _); sl; exact L.
    + destruct (called _); sl; exact L.
  - assert (Item : forall k, locks (sy (fst (drv_item s k))) = []).
    { intros k. unfold drv_item. destruct (fifo (sy s)) as [|x f]; [destruct k; sl; exact L|].
      destruct k; try (sl; exact L).
      pose proof (item_done_locks (sy s) None) as [H1 H2]. destruct (item_done (sy s) None) as [y1 o]. sl. congruence. }
    unfold drv_run. destruct (drv s) as [|k|k [|]| |k]; try (sl; exact L); try apply Item.
    + unfold drv_choose. pose proof (try_select_locks anc (sy s) (relevant rv) rnd) as [H _]. unfold try_select in H.
      destruct (choose anc (sy s) (relevant rv) rnd) as [|i| |]; sl; try exact L.
      * destruct k; sl; try (destruct (irrelevant anc (sy s) rv)); sl; exact L.
      * destruct (select (sy s) i) as [y1 o]. sl.
        assert (E : forall x, locks (sy (flags k x)) = locks (sy x)) by (intros; now destruct k).
        rewrite E. sl. congruence.
    + sl. destruct (Nat.eqb _ _); sl; exact L.
  - pose proof (item_done_locks (sy s) rsp) as [H1 H2]. destruct (item_done (sy s) rsp) as [y1 o]. sl. congruence.
  - destruct (registered (sy s)); sl; exact L.
Qed.

(** ** Nobody is left asleep *)
Record winv (s : sel) (tr : list sout) : Prop := {
  wi_a : ainv (core (sy s)) (evs tr);
  wi_locks : locks (sy s) = [];
  wi_le : forall r c b, wst s r = Some (c, b) -> c <= lsize s;
  wi_comp : forall r, In r (completed (sy s)) -> exists c, wst s r = Some (c, true) /\ c < lsize s;
  wi_some : forall r q, In (r, q) (reqs (arbq (sy s))) -> wst s r <> None;
  wi_size : asize s <= lsize s;
  wi_wait : forall k b, drv s = DWait k b -> b = false -> asize s = lsize s
}.

(** Steps that leave the arbitration alone. *)
Lemma winv_same s tr s' o : winv s tr -> ainv (core (sy s')) (evs (tr ++ o)) -> locks (sy s') = [] ->
  core (sy s') = core (sy s) ->
  lsize s' = lsize s -> asize s' = asize s -> wst s' = wst s ->
  (forall k b, drv s' = DWait k b -> b = false -> asize s = lsize s) -> winv s' (tr ++ o).
Proof.
  intros [A L P1 P2 P3 P4 P5] A' L' E E1 E2 E3 D.
  unfold core in E. injection E as Eq Ec Ew En.
  constructor; auto; rewrite ?Eq, ?Ec, ?E1, ?E2, ?E3; auto.
Qed.

Lemma wake_wst (w : nat -> option (nat * bool)) r c b :
  (match w r with Some (c, _) => Some (c, true) | None => None end) = Some (c, b) ->
  b = true /\ exists b', w r = Some (c, b').
Proof. destruct (w r) as [[c' b']|]; [|discriminate]. intros [= <- <-]. eauto. Qed.

Lemma winv_wake s tr s' o : winv s tr -> ainv (core (sy s')) (evs (tr ++ o)) -> locks (sy s') = [] ->
  core (sy s') = core (sy s) -> lsize s' = lsize s -> asize s' <= lsize s -> wst s' = wst (wake s) ->
  (forall k, drv s' <> DWait k false) -> winv s' (tr ++ o).
Proof.
  intros [A L P1 P2 P3 P4 P5] A' L' E E1 E2 E3 D.
  unfold core in E. injection E as Eq Ec Ew En.
  constructor; auto; rewrite ?Eq, ?Ec, ?E1, ?E3; sl; auto.
  - intros r c b H. apply wake_wst in H as (-> & b' & H). eauto.
  - intros r H. apply P2 in H as (c & H & Hc). rewrite H. eauto.
  - intros r q H. specialize (P3 r q H). now destruct (wst s r) as [[? ?]|].
  - intros k b H ->. now destruct (D k).
Qed.

(** Steps that call m_update_lists. *)
Lemma winv_bump s tr y o n : winv s tr -> n <> 0 -> ainv (core y) (evs (tr ++ o)) -> locks y = [] ->
  (forall r, In r (completed y) -> In r (completed (sy s)) \/ exists q, In (r, q) (reqs (arbq (sy s)))) ->
  (forall r q, In (r, q) (reqs (arbq y)) -> wst s r <> None) ->
  winv (update_lists (set_sy s y) n) (tr ++ o).
Proof.
  intros [A L P1 P2 P3 P4 P5] N A' L' C Q. destruct n as [|n]; [congruence|]. constructor; sl; auto.
  - intros r c b H. apply wake_wst in H as (-> & b' & H). apply P1 in H. lia.
  - intros r H. apply C in H as [H|(q & H)].
    + apply P2 in H as (c & H & Hc). rewrite H. exists c. split; [auto|lia].
    + apply P3 in H. destruct (wst s r) as [[c b]|] eqn:E; [|congruence]. exists c. split; [auto|].
      apply P1 in E. lia.
  - intros r q H. specialize (Q r q H). now destruct (wst s r) as [[? ?]|].
  - lia.
  - intros k b H ->. destruct (drv s); discriminate H.
Qed.

Lemma winv_flags k s tr : winv s tr -> winv (flags k s) tr.
Proof. intros [A L P1 P2 P3 P4 P5]. destruct k; constructor; sl; auto. Qed.

Lemma winv_drv s tr d : winv s tr -> (forall k, d <> DWait k false) -> winv (set_drv s d) tr.
Proof. intros [A L P1 P2 P3 P4 P5] D. constructor; sl; auto. intros k b -> ->. now destruct (D k). Qed.

Lemma select_spec y i y1 o : select y i = (y1, o) ->
  (exists r, nth_error (arbq y) i = Some r /\ completed y1 = r_id r :: completed y
     /\ arbq y1 = remove_nth i (arbq y) /\ locks y1 = locks y /\ arb y1 = arb y /\ waiting y1 = waiting y
     /\ next_rid y1 = next_rid y /\ o = [OSelected (r_id r) (r_seq r)])
  \/ nth_error (arbq y) i = None.
Proof.
  unfold select. destruct (nth_error (arbq y) i) as [r|]; [|auto]. intros [= <- <-]. left. exists r. sq. auto 10.
Qed.

Lemma reqs_in2 z q : In z q -> r_kind z = KReq -> In (r_id z, r_seq z) (reqs q).
Proof. intros H K. unfold reqs. apply in_map_iff. exists z. split; [auto|]. apply filter_In. now rewrite K. Qed.

Lemma reqs_remove x i q : In x (reqs (remove_nth i q)) -> In x (reqs q).
Proof.
  revert i. induction q as [|z q IH]; intros i H; [destruct i; exact H|]. destruct i as [|i]; cbn [remove_nth] in H.
  - unfold reqs in *. cbn [filter]. destruct (r_kind z); [right|]; exact H.
  - unfold reqs in *. cbn [filter] in *. destruct (r_kind z); cbn [map] in *.
    + destruct H as [H|H]; [now left|right]. eauto.
    + eauto.
Qed.

Lemma reqs_filter_in x (P : req -> bool) q : In x (reqs (filter P q)) -> In x (reqs q).
Proof.
  unfold reqs. rewrite !in_map_iff. intros (z & E & H). exists z. split; [auto|].
  apply filter_In in H as [H K]. apply filter_In in H as [H _]. apply filter_In. auto.
Qed.

Lemma winv_step anc s tr l : winv s tr -> winv (fst (sstep anc s l)) (tr ++ snd (sstep anc s l)).
Proof.
  intros W. pose proof W as [A L P1 P2 P3 P4 P5].
  pose proof (sstep_arb anc s l) as HA. pose proof (sstep_locks anc s l L) as HL.
  assert (AA : ainv (core (sy (fst (sstep anc s l)))) (evs (tr ++ snd (sstep anc s l)))).
  { apply ainv_ae. rewrite evs_app, ae_app. eapply ainv_step; [apply ainv_ae; exact A|exact HA]. }
  clear HA.
  destruct l as [l|r|k|rv rnd|rsp|]; cbn [sstep] in *.
  - assert (P : passes l = true \/ (exists q lk, l = LRequest q lk) \/ (exists q, l = LExit q) \/ sstep anc s (SCore l) = (s, [])).
    { destruct l; cbn; eauto. }
    destruct P as [P|[(q & lk & -> )|[(q & -> )|P]]].
    + assert (C : core (fst (step anc (sy s) l)) = core (sy s)
        \/ arbq (fst (step anc (sy s) l)) = arbq (sy s) /\ completed (fst (step anc (sy s) l)) = completed (sy s)).
      { destruct l as [s0|s0 lk|r0|s0 t p|s0|s0| |s0|a|k|rel rnd|rel rnd| | |rel rnd|rsp|x|p s0 t|p|s0 d|s0 b];
          cbn [step]; try discriminate P; try (left; reflexivity).
        - left. unfold start. sq. now rewrite register_core.
        - left. unfold send_request. destruct (Z.ltb _ _); [auto|]. sq. now destruct (fifo (sy s)).
        - left. destruct (iwait (sy s) s0) as [[]|]; try reflexivity. now destruct (Z.eqb _ _).
        - right. auto.
        - left. apply put_response_same.
        - left. unfold get_call. destruct (respq _ s0); [reflexivity|apply get_scan_same].
        - left. unfold get_wake. destruct (getters _ p) as [g|]; [|reflexivity]. destruct (g_size g).
          + destruct (Nat.eqb _ _); [reflexivity|apply get_scan_same].
          + destruct (respq _ _); [reflexivity|apply get_scan_same]. }
      assert (E : sstep anc s (SCore l) = (set_sy s (fst (step anc (sy s) l)), map Ev (snd (step anc (sy s) l)))).
      { destruct l; try discriminate P; cbn [sstep passes]; now destruct (step anc (sy s) _). }
      cbn [sstep] in E. rewrite E in AA, HL |- *. sl.
      assert (Eq : arbq (fst (step anc (sy s) l)) = arbq (sy s) /\ completed (fst (step anc (sy s) l)) = completed (sy s)).
      { destruct C as [C|C]; [|exact C]. unfold core in C. now injection C as ? ? ? ?. }
      destruct Eq as [Eq Ec]. constructor; sl; rewrite ?Eq, ?Ec; auto.
    + destruct (request (sy s) q lk) as [y1 o] eqn:E. sl.
      assert (F : completed y1 = completed (sy s) /\ next_rid (sy s) <= next_rid y1 - 1 /\ exists l1 i,
          arbq y1 = arbq (sy s) ++ l1 ++ [Req (next_rid y1 - 1) KReq q i] /\ reqs l1 = []).
      { unfold request in E. assert (R : core (register (sy s) q) = core (sy s)) by apply register_core.
        unfold core in R. injection R as Rq Rc Rw Rn.
        destruct lk; injection E as <- <-; sq; rewrite ?Rc, ?Rn, ?Rq; (split; [auto|]);
          (split; [lia|]).
        - eexists [_], _. rewrite <- app_assoc. cbn [app].
          replace (S (S (next_rid (sy s))) - 1) with (S (next_rid (sy s))) by lia. split; reflexivity.
        - eexists [], _. cbn [app]. replace (S (next_rid (sy s)) - 1) with (next_rid (sy s)) by lia. split; reflexivity. }
      destruct F as (Fc & Fn & l1 & i & Fq & Fr).
      set (n := next_rid y1 - 1) in *.
      assert (Lt : forall r, In r (completed (sy s)) -> r < next_rid (sy s)).
      { intros r Hr. apply (ai_comp _ _ A) in Hr as [Hr _]. apply in_map_iff in Hr as ((r', q') & <- & Hr).
        apply (ai_sel _ _ A) in Hr as (Hr & _). apply (ai_lt _ _ A). right. apply in_map_iff. exists (r', q'). auto. }
      constructor; sl; auto.
      * intros r c b. unfold upd. destruct (Nat.eqb_spec r n); [intros [= <- <-]; lia|].
        intros H. apply wake_wst in H as (-> & b' & H). apply P1 in H. lia.
      * rewrite Fc. intros r Hr. pose proof (Lt r Hr). rewrite upd_neq by lia. apply P2 in Hr as (c & Hr & Hc). rewrite Hr.
        exists c. split; [auto|lia].
      * intros r q0. rewrite Fq. rewrite !reqs_app, Fr. intros H. unfold upd. destruct (Nat.eqb_spec r n); [discriminate|].
        apply in_app_iff in H as [H|[H|[]]].
        -- specialize (P3 r q0 H). now destruct (wst s r) as [[? ?]|].
        -- injection H as <- _. congruence.
      * lia.
      * intros k b H ->. destruct (drv s); discriminate H.
    + destruct (remove_seq anc (sy s) q) as [y1 o] eqn:E. sl.
      assert (F : completed y1 = completed (sy s) /\ arbq y1 = filter (fun r => negb (gone anc (sy s) q r)) (arbq (sy s))).
      { unfold remove_seq in E. injection E as <- <-. destruct (filter (gone anc (sy s) q) (arbq (sy s))),
          (filter _ (locks (sy s))); sq; auto. }
      destruct F as [Fc Fq]. destruct (_ + _) eqn:EN.
      * sl. constructor; sl; rewrite ?Fc; auto. intros r q0. rewrite Fq. intros H. apply reqs_filter_in in H. eauto.
      * apply winv_bump; auto.
        -- rewrite Fc. auto.
        -- rewrite Fq. intros r q0 H. apply reqs_filter_in in H. eauto.
    + cbn [sstep] in P. rewrite P in *. sl. rewrite app_nil_r in *. exact W.
  - unfold grant_run in *. destruct (wst s r) as [[c [|]]|] eqn:Ew; sl; try (rewrite app_nil_r; exact W).
    destruct (Nat.eqb_spec c (lsize s)) as [Ec|Ec].
    + sl. rewrite app_nil_r in *. constructor; sl; auto.
      * intros r0 c0 b. unfold upd. destruct (Nat.eqb_spec r0 r) as [->|]; [intros [= <- <-]; lia|]. eauto.
      * intros r0 H. unfold upd. destruct (Nat.eqb_spec r0 r) as [->|]; [|auto].
        apply P2 in H as (c0 & H & Hc). rewrite Ew in H. injection H as <-. lia.
      * intros r0 q H. unfold upd. destruct (Nat.eqb_spec r0 r); [discriminate|eauto].
    + pose proof (step_arb anc (clear (sy s)) (LGrant r)) as HA. cbn [step] in HA.
      assert (NG : snd (granted (clear (sy s)) r) = [] -> ~ In r (completed (sy s))).
      { intros HG Hr. unfold granted in HG. change (waiting (clear (sy s))) with (waiting (sy s)) in HG.
        change (completed (clear (sy s))) with (completed (sy s)) in HG.
        apply in_existsb_nat in Hr. rewrite Hr in HG.
        destruct (find _ _) as [[? ?]|] eqn:F; [discriminate HG|].
        apply in_existsb_nat in Hr. destruct (ai_comp _ _ A r Hr) as [H1 H2].
        apply in_map_iff in H1 as ((r', q') & E & H1). cbn [fst] in E. subst r'.
        destruct (ai_sel _ _ A _ _ H1) as (H3 & _). pose proof (ai_wait2 _ _ A _ _ H3 H2) as H4. cbn [core aw] in H4.
        eapply find_none in F; [|exact H4]. cbn [fst] in F. now rewrite Nat.eqb_refl in F. }
      destruct (granted (clear (sy s)) r) as [y1 o] eqn:EG. cbn [fst snd] in *. destruct o as [|x o].
      * sl. rewrite app_nil_r in *. constructor; sl; auto.
        -- intros r0 c0 b. unfold upd. destruct (Nat.eqb_spec r0 r) as [->|]; [intros [= <- <-]; lia|]. eauto.
        -- intros r0 H. unfold upd. destruct (Nat.eqb_spec r0 r) as [->|]; [|auto].
           exfalso. apply NG; auto.
        -- intros r0 q H. unfold upd. destruct (Nat.eqb_spec r0 r); [discriminate|eauto].
      * assert (G : arbq y1 = arbq (sy s) /\ completed y1 = filter (fun z => negb (Nat.eqb z r)) (completed (sy s))
                    /\ In r (completed (sy s))).
        { unfold granted in EG. destruct (find _ _) as [[? ?]|]; [|discriminate EG].
          destruct (existsb _ _) eqn:EX; [|discriminate EG]. injection EG as <- <- <-. sq.
          split; [auto|]. split; [auto|]. now apply in_existsb_nat in EX. }
        destruct G as (Gq & Gc & Gr). sl. constructor; sl; auto.
        -- intros r0 c0 b. unfold upd. destruct (Nat.eqb_spec r0 r) as [->|]; [discriminate|]. eauto.
        -- rewrite Gc. intros r0 H. apply filter_In in H as [H N]. apply negb_true_iff, Nat.eqb_neq in N.
           rewrite upd_neq by auto. auto.
        -- rewrite Gq. intros r0 q H. unfold upd. destruct (Nat.eqb_spec r0 r) as [->|]; [|eauto].
           exfalso. destruct (ai_comp _ _ A r Gr) as [H1 _].
           apply in_map_iff in H1 as ((r', q') & E & H1). cbn [fst] in E. subst r'.
           destruct (ai_sel _ _ A _ _ H1) as (_ & H3 & _). apply H3. eapply reqs_in. exact H.
  - unfold drv_call in *. destruct (drv s) eqn:ED; sl; try (rewrite app_nil_r; exact W).
    assert (Q : forall d o k0, (forall k, d <> DWait k false) -> ainv (core (sy s)) (evs (tr ++ o)) ->
                winv (set_drv s d) (tr ++ o) /\ winv (set_drv (flags k0 s) d) (tr ++ o)).
    { intros d o k0 Hd Ha.
      assert (W2 : winv s (tr ++ o)) by (eapply winv_same; eauto; intros; congruence).
      split; [now apply winv_drv|]. now apply winv_drv; [apply winv_flags|]. }
    destruct k.
    + destruct (negb _ && negb (zero s)); sl; rewrite ?flags_core in AA; apply (Q _ _ KNext); auto; discriminate.
    + destruct (requested _); sl; apply (Q _ _ KPeek); auto; discriminate.
    + destruct (requested _); sl; apply (Q _ _ KGet); auto; discriminate.
    + destruct (called _); sl; [eapply winv_same; eauto; intros; congruence|apply (Q _ _ KTry); auto; discriminate].
  - assert (Item : forall k, drv s <> DWait k true -> forall (AA : ainv (core (sy (fst (drv_item s k)))) (evs (tr ++ snd (drv_item s k))))
        (HL : locks (sy (fst (drv_item s k))) = []), winv (fst (drv_item s k)) (tr ++ snd (drv_item s k))).
    { intros k _. unfold drv_item. destruct (fifo (sy s)) as [|x f].
      - destruct k; sl; intros ? ?; eapply winv_same; eauto; sl; try discriminate; auto.
      - destruct k; sl; intros AA' HL'; try (eapply winv_same; eauto; sl; discriminate).
        pose proof (item_done_same (sy s) None) as [H1 _]. destruct (item_done (sy s) None) as [y1 o]. sl.
        eapply winv_same; eauto. sl. discriminate. }
    unfold drv_run in *. destruct (drv s) as [|k|k [|]| |k] eqn:ED; try (sl; rewrite app_nil_r; exact W);
      try (apply Item; auto; discriminate).
    + unfold drv_choose in *. destruct (choose anc (sy s) (relevant rv) rnd) as [|i| |] eqn:EC; sl.
      * destruct k; sl; try (destruct (irrelevant anc (sy s) rv); sl);
          try (eapply winv_same; eauto; sl; discriminate); (eapply winv_wake; eauto; sl; auto; discriminate).
      * pose proof (choose_nth _ _ _ _ _ EC) as (z & Hz & Hk & _).
        destruct (select (sy s) i) as [y1 o] eqn:ES. sl.
        apply select_spec in ES as [(z' & Ez & Sc & Sq & Sl & _)|N]; [|congruence]. rewrite Hz in Ez. injection Ez as <-.
        assert (W2 : winv (update_lists (set_sy s y1) 1) (tr ++ map Ev o)).
        { apply winv_bump; auto; [now rewrite flags_core in AA|congruence| |].
          - rewrite Sc. intros r [<-|H]; [right|now left]. exists (r_seq z). apply reqs_in2; auto. now apply nth_error_In in Hz.
          - rewrite Sq. intros r q H. apply reqs_remove in H. eauto. }
        apply winv_drv; [apply winv_flags; exact W2|]. destruct k; discriminate.
      * eapply winv_same; eauto. sl. discriminate.
      * eapply winv_same; eauto. sl. discriminate.
    + sl. destruct (Nat.eqb_spec (asize s) (lsize s)); sl; eapply winv_same; eauto; sl; try discriminate.
  - pose proof (item_done_same (sy s) rsp) as [H1 _]. destruct (item_done (sy s) rsp) as [y1 o]. sl.
    eapply winv_same; eauto.
  - destruct (registered (sy s)); sl; eapply winv_same; eauto.
Qed.

Lemma winv0 : winv sel0 [].
Proof. constructor; cbn; auto; try discriminate; try tauto. exact ainv0. Qed.

Lemma winv_run anc ls : winv (fst (run_machine (sstep anc) sel0 ls)) (snd (run_machine (sstep anc) sel0 ls)).
Proof.
  refine (run_machine_inv (sstep anc) winv _ ls sel0 [] winv0). intros s tr l. apply winv_step.
Qed.

(** ** The driver sleeps only while nothing is pending *)
Record qinv (s : sel) : Prop := {
  qi_kind : forall q, In q (arbq (sy s)) -> r_kind q = KReq;
  qi_wait : forall k b, drv s = DWait k b -> asize s = lsize s -> arbq (sy s) = []
}.

Lemma avail_nil anc y rel q i : avail anc y rel i q = [] ->
  forall z, In z q -> r_kind z = KReq -> is_blocked anc y (r_seq z) = false -> rel (r_seq z) = false.
Proof.
  intros H z Hz HK HB. destruct (rel (r_seq z)) eqn:E; [|reflexivity].
  destruct (avail_some anc y rel q i z Hz HK HB E) as (k & Hk & _). rewrite H in Hk. destruct Hk.
Qed.

Lemma choose_none anc y rel rnd : choose anc y rel rnd = CNone -> avail anc y rel 0 (arbq y) = [].
Proof.
  unfold choose. destruct (lock_first y); [discriminate|]. destruct (avail anc y rel 0 (arbq y)) as [|i l]; [auto|].
  destruct (Nat.eqb _ 0); [discriminate|]. destruct l; [discriminate|]. destruct (Nat.eqb _ 2); [|discriminate].
  destruct (nth_error _ rnd); discriminate.
Qed.

Lemma none_empty anc s rv rnd : locks (sy s) = [] -> (forall q, In q (arbq (sy s)) -> r_kind q = KReq) ->
  (forall q, rv q = 0%Z \/ rv q = 1%Z) -> choose anc (sy s) (relevant rv) rnd = CNone ->
  irrelevant anc (sy s) rv = false -> arbq (sy s) = [].
Proof.
  intros L K R C I. apply choose_none in C. destruct (arbq (sy s)) as [|z q] eqn:E; [reflexivity|exfalso].
  assert (B : is_blocked anc (sy s) (r_seq z) = false) by now apply is_blocked_nil.
  assert (Kz : r_kind z = KReq) by (apply K; now left).
  pose proof (avail_nil anc (sy s) (relevant rv) (z :: q) 0 C z (or_introl eq_refl) Kz B) as V.
  unfold irrelevant in I. rewrite E in I. cbn [existsb] in I. rewrite Kz, B in I. cbn in I.
  unfold relevant in V. apply Z.eqb_neq in V. destruct (R (r_seq z)) as [R1|R1]; [|congruence].
  rewrite R1 in I. discriminate I.
Qed.

Lemma evs_in o tr : In o (evs tr) -> In (Ev o) tr.
Proof.
  unfold evs. rewrite in_flat_map. intros (e & He & H). destruct e as [o'| | | | |]; try (destruct H; fail).
  destruct H as [<-|[]]. exact He.
Qed.

Lemma sstep_kind anc s l : lockless (snd (sstep anc s l)) -> (forall q, In q (arbq (sy s)) -> r_kind q = KReq) ->
  forall q, In q (arbq (sy (fst (sstep anc s l)))) -> r_kind q = KReq.
Proof.
  intros F K. apply (astep_nolock _ _ _ (sstep_arb anc s l)); [|exact K].
  intros r q H. apply filter_In in H as [H _]. apply evs_in in H. now apply F in H.
Qed.

Lemma qinv_step anc s tr l : winv s tr -> qinv s -> zero_or_one l -> lockless (snd (sstep anc s l)) ->
  qinv (fst (sstep anc s l)).
Proof.
  intros W [K Q] Z N. split; [now apply sstep_kind|]. clear N. pose proof (wi_size _ _ W) as Le.
  destruct l as [l|r|k|rv rnd|rsp|]; cbn [sstep].
  - assert (P : passes l = true \/ (exists q lk, l = LRequest q lk) \/ (exists q, l = LExit q) \/ sstep anc s (SCore l) = (s, [])).
    { destruct l; cbn; eauto. }
    destruct P as [P|[(q & lk & -> )|[(q & -> )|P]]].
    + assert (E : sstep anc s (SCore l) = (set_sy s (fst (step anc (sy s) l)), map Ev (snd (step anc (sy s) l)))).
      { destruct l; try discriminate P; cbn [sstep passes]; now destruct (step anc (sy s) _). }
      cbn [sstep] in E. rewrite E. sl. intros k b D E1. specialize (Q k b D E1).
      destruct l as [s0|s0 lk|r0|s0 t p|s0|s0| |s0|a|k0|rel rnd|rel rnd| | |rel rnd|rsp|x|p s0 t|p|s0 d|s0 b0];
          cbn [step]; try discriminate P; try exact Q.
      * unfold start. sq. pose proof (register_core (set_ids (set_resp (sy s) (upd (respq (sy s)) s0 []) (depth (sy s)) (handler (sy s)) (getters (sy s)))
          (next_sid (sy s)) (upd (sid (sy s)) s0 (-1)%Z) (reg (sy s))) s0) as C. unfold core in C. injection C as C _ _ _. sq. now rewrite C.
      * unfold send_request. destruct (Z.ltb _ _); [auto|]. sq. now destruct (fifo (sy s)).
      * destruct (iwait (sy s) s0) as [[]|]; auto. now destruct (Z.eqb _ _).
      * destruct (put_response_same (sy s) x) as [C _]. unfold core in C. injection C as C _ _ _. now rewrite C.
      * unfold get_call. destruct (respq _ s0); [auto|]. destruct (get_scan_same (sy s) p s0 t) as [C _].
        unfold core in C. injection C as C _ _ _. now rewrite C.
      * unfold get_wake. destruct (getters _ p) as [g|]; [|auto].
        destruct (get_scan_same (sy s) p (g_seq g) (g_tid g)) as [C _]. unfold core in C. injection C as C _ _ _.
        destruct (g_size g).
        -- destruct (Nat.eqb _ _); [auto|now rewrite C].
        -- destruct (respq _ _); [auto|now rewrite C].
    + destruct (request (sy s) q lk) as [y1 o]. sl. intros k b D E. lia.
    + pose proof (eq_refl (remove_seq anc (sy s) q)) as E. unfold remove_seq in E at 2.
      destruct (remove_seq anc (sy s) q) as [y1 o]. injection E as -> ->.
      destruct (_ + _); sl; intros k b D E.
      * specialize (Q k b D E). rewrite Q. cbn [filter]. now destruct (filter _ (locks (sy s))).
      * lia.
    + cbn [sstep] in P. rewrite P. exact Q.
  - unfold grant_run. destruct (wst s r) as [[c [|]]|]; try exact Q.
    destruct (Nat.eqb c (lsize s)); [exact Q|]. sl.
    assert (G : arbq (fst (granted (clear (sy s)) r)) = arbq (sy s)).
    { unfold granted. destruct (find _ _) as [[? ?]|]; [|reflexivity]. now destruct (existsb _ _). }
    destruct (granted (clear (sy s)) r) as [y1 o]. sl. destruct o; sl; [exact Q|]. rewrite G. exact Q.
  - unfold drv_call. destruct (drv s) eqn:D; sl; try (rewrite D; exact Q). destruct k; sl.
    + destruct (_ && negb (zero s)); sl; discriminate.
    + destruct (requested _); sl; discriminate.
    + destruct (requested _); sl; discriminate.
    + destruct (called _); sl; [rewrite D; exact Q|discriminate].
  - assert (G : forall k, (forall k b, drv s <> DWait k b) -> forall k1 b, drv (fst (drv_item s k)) = DWait k1 b -> False).
    { intros k H k1 b. unfold drv_item. destruct (fifo (sy s)); [destruct k; sl; try discriminate; apply H|].
      destruct k; sl; try discriminate. destruct (item_done (sy s) None). sl. discriminate. }
    unfold drv_run. destruct (drv s) as [|k|k [|]| |k] eqn:D; sl; try (rewrite D; exact Q).
    + unfold drv_choose. destruct (choose anc (sy s) (relevant rv) rnd) as [|i| |] eqn:C; sl; try discriminate.
      * destruct k; sl; try discriminate; (destruct (irrelevant anc (sy s) rv) eqn:I; sl; [discriminate|]);
          intros k1 b _ _; (apply (none_empty anc s rv rnd); auto; apply (wi_locks _ _ W)).
      * destruct (select (sy s) i) as [y1 o]. sl. destruct k; discriminate.
    + destruct (Nat.eqb_spec (asize s) (lsize s)); sl; [|discriminate]. intros k1 b _ _. now apply (Q k true).
    + intros k1 b H. exfalso. eapply G; [|exact H]. discriminate.
    + intros k1 b H. exfalso. eapply G; [|exact H]. discriminate.
  - destruct (item_done_same (sy s) rsp) as [C _]. unfold core in C. injection C as C _ _ _.
    destruct (item_done (sy s) rsp) as [y1 o]. sl. rewrite C. exact Q.
  - destruct (registered (sy s)); sl; exact Q.
Qed.

Lemma qinv_run anc ls : Forall zero_or_one ls -> lockless (snd (run_machine (sstep anc) sel0 ls)) ->
  qinv (fst (run_machine (sstep anc) sel0 ls)).
Proof.
  induction ls as [|l ls IH] using rev_ind; intros Z N; [split; [intros q []|discriminate]|].
  rewrite run_machine_app in *. cbn [run_machine] in *.
  apply Forall_app in Z as [Z1 Z2]. apply Forall_cons_iff in Z2 as [Z2 _].
  pose proof (winv_run anc ls) as W. set (s := fst (run_machine (sstep anc) sel0 ls)) in *.
  pose proof (qinv_step anc s _ l W) as H. destruct (sstep anc s l) as [s1 o]. cbn [fst snd] in *.
  rewrite app_nil_r in N. apply H; auto.
  - apply IH; auto. intros r q Hin. apply (N r q). apply in_app_iff. auto.
  - intros r q Hin. apply (N r q). apply in_app_iff. auto.
Qed.

(** ** The mode *)
Lemma sstep_mode anc s l : first_come l -> arb (sy s) = 0 -> arb (sy (fst (sstep anc s l))) = 0.
Proof.
  intros F M. destruct l as [l|r|k|rv rnd|rsp|]; cbn [sstep].
  - assert (H : arb (fst (step anc (sy s) l)) = 0).
    { destruct l as [s0|s0 lk|r0|s0 t p|s0|s0| |s0|a|k|rel rnd|rel rnd| | |rel rnd|rsp|x|p s0 t|p|s0 d|s0 b];
        try (rewrite step_mode; [exact M|discriminate]). exact F. }
    assert (P : passes l = true \/ (exists q lk, l = LRequest q lk) \/ (exists q, l = LExit q) \/ sstep anc s (SCore l) = (s, [])).
    { destruct l; cbn; eauto. }
    destruct P as [P|[(q & lk & -> )|[(q & -> )|P]]].
    + assert (E : sstep anc s (SCore l) = (set_sy s (fst (step anc (sy s) l)), map Ev (snd (step anc (sy s) l)))).
      { destruct l; try discriminate P; cbn [sstep passes]; now destruct (step anc (sy s) _). }
      cbn [sstep] in E. rewrite E. exact H.
    + cbn [step] in H. destruct (request (sy s) q lk) as [y1 o]. exact H.
    + cbn [step] in H. destruct (remove_seq anc (sy s) q) as [y1 o]. sl. destruct (_ + _); exact H.
    + cbn [sstep] in P. rewrite P. exact M.
  - unfold grant_run. destruct (wst s r) as [[c [|]]|]; try (sl; exact M).
    destruct (Nat.eqb c (lsize s)); [sl; exact M|]. sl.
    assert (G : arb (fst (granted (clear (sy s)) r)) = arb (sy s)).
    { unfold granted. destruct (find _ _) as [[? ?]|]; [|reflexivity]. now destruct (existsb _ _). }
    destruct (granted (clear (sy s)) r) as [y1 o]. sl. destruct o; sl; [exact M|congruence].
  - unfold drv_call. destruct (drv s); try (sl; exact M). destruct k; sl.
    + destruct (_ && negb (zero s)); sl; exact M.
    + destruct (requested _); sl; exact M.
    + destruct (requested _); sl; exact M.
    + destruct (called _); sl; exact M.
  - assert (Item : forall k, arb (sy (fst (drv_item s k))) = 0).
    { intros k. unfold drv_item. destruct (fifo (sy s)) as [|x f]; [destruct k; sl; exact M|].
      destruct k; try (sl; exact M).
      pose proof (item_done_locks (sy s) None) as [H1 H2]. destruct (item_done (sy s) None) as [y1 o]. sl. congruence. }
    unfold drv_run. destruct (drv s) as [|k|k [|]| |k]; try (sl; exact M); try apply Item.
    + unfold drv_choose. destruct (choose anc (sy s) (relevant rv) rnd) as [|i| |]; sl; try exact M.
      * destruct k; sl; try (destruct (irrelevant anc (sy s) rv)); sl; exact M.
      * assert (H : arb (fst (select (sy s) i)) = 0) by (unfold select; now destruct (nth_error _ i)).
        destruct (select (sy s) i) as [y1 o]. sl. destruct k; sl; exact H.
    + sl. destruct (Nat.eqb _ _); sl; exact M.
  - pose proof (item_done_locks (sy s) rsp) as [H1 H2]. destruct (item_done (sy s) rsp) as [y1 o]. sl. congruence.
  - destruct (registered (sy s)); sl; exact M.
Qed.
Lemma mode_srun anc ls : Forall first_come ls -> arb (sy (fst (run_machine (sstep anc) sel0 ls))) = 0.
Proof.
  induction ls as [|l ls IH] using rev_ind; intros F; [reflexivity|].
  rewrite run_machine_app. cbn [run_machine]. apply Forall_app in F as [F1 F2]. apply Forall_cons_iff in F2 as [F2 _].
  pose proof (sstep_mode anc (fst (run_machine (sstep anc) sel0 ls)) l F2 (IH F1)) as H.
  destruct (sstep anc (fst (run_machine (sstep anc) sel0 ls)) l). exact H.
Qed.

(** ** Choosing *)
Lemma choose_some anc y rv rnd r q : locks y = [] -> arb y = 0 -> (forall z, In z (arbq y) -> r_kind z = KReq) ->
  In (r, q) (reqs (arbq y)) -> rv q = 1%Z -> exists i, choose anc y (relevant rv) rnd = CSome i.
Proof.
  intros L M K H R. apply in_reqs in H as (z & Hz & HK & <- & <-).
  assert (B : is_blocked anc y (r_seq z) = false) by now apply is_blocked_nil.
  destruct (avail_some anc y (relevant rv) (arbq y) 0 z Hz HK B) as (k & Hk & _); [unfold relevant; now rewrite R|].
  unfold choose. rewrite (lock_first_false y K). destruct (avail anc y (relevant rv) 0 (arbq y)) as [|i l]; [destruct Hk|].
  rewrite M. cbn [Nat.eqb]. eauto.
Qed.
Lemma drv_selects anc s k rv rnd r q : drv s = DNba k -> locks (sy s) = [] -> arb (sy s) = 0 ->
  (forall z, In z (arbq (sy s)) -> r_kind z = KReq) ->
  In (r, q) (reqs (arbq (sy s))) -> rv q = 1%Z ->
  exists r' q', In (Ev (OSelected r' q')) (snd (sstep anc s (SDrv rv rnd))).
Proof.
  intros D L M K H R. destruct (choose_some anc (sy s) rv rnd r q L M K H R) as [i C].
  cbn [sstep]. unfold drv_run. rewrite D. unfold drv_choose. rewrite C.
  destruct (choose_nth _ _ _ _ _ C) as (z & Hz & _). unfold select. rewrite Hz. cbn [snd map].
  exists (r_id z), (r_seq z). now left.
Qed.

(** ** Registered sequences *)
Record rinv (y : sqr) : Prop := {
  ri_pos : (0 < next_sid y)%Z;
  ri_lt : forall q, (sid y q < next_sid y)%Z;
  ri_inj : forall q q', (0 < sid y q)%Z -> sid y q = sid y q' -> q = q';
  ri_reg : forall i q, reg y i = Some q -> (i < next_sid y)%Z
}.
Definition live (y : sqr) (q : nat) : Prop :=
  (0 < sid y q < next_sid y)%Z /\ reg y (sid y q) = Some q.
Definition ids_same (y y' : sqr) : Prop := next_sid y' = next_sid y /\ sid y' = sid y /\ reg y' = reg y.

Lemma rinv_same y y' : ids_same y y' -> rinv y -> rinv y' /\ forall q, live y q -> live y' q.
Proof. intros (E1 & E2 & E3) [R1 R2 R3 R4]. split; [|unfold live; intros; now rewrite E1, E2, E3].
  constructor; rewrite ?E1, ?E2, ?E3; auto. Qed.

Lemma rinv_register y q : rinv y -> rinv (register y q) /\ (forall q', live y q' -> live (register y q) q')
  /\ ((forall i, reg y i = Some q -> True) -> (0 < sid y q -> reg y (sid y q) = Some q)%Z -> live (register y q) q).
Proof.
  intros [R1 R2 R3 R4]. unfold register. destruct (Z.gtb_spec (sid y q) 0) as [G|G].
  - split; [now constructor|]. split; [auto|]. intros _ H. split; [specialize (R2 q); lia|apply H; lia].
  - sq. split; [|split].
    + constructor; sq.
      * lia.
      * intros q'. unfold upd. destruct (Nat.eqb q' q); [lia|]. specialize (R2 q'). lia.
      * intros q1 q2. unfold upd. destruct (Nat.eqb_spec q1 q), (Nat.eqb_spec q2 q); subst; auto; intros H E.
        -- specialize (R2 q2). lia.
        -- specialize (R2 q1). lia.
      * intros i q'. destruct (Z.eqb_spec i (next_sid y)); [lia|]. intros H. apply R4 in H. lia.
    + intros q' [[L1 L2] L3]. unfold live. sq. unfold upd. destruct (Nat.eqb_spec q' q) as [->|N]; [lia|].
      split; [lia|]. destruct (Z.eqb_spec (sid y q') (next_sid y)); [lia|auto].
    + intros _ _. unfold live. sq. rewrite upd_eq. split; [lia|]. now rewrite Z.eqb_refl.
Qed.

Lemma ids_sstep anc s l : (forall q, l <> SCore (LStart q)) -> (forall q lk, l <> SCore (LRequest q lk)) ->
  (forall q, l <> SCore (LExit q)) -> ids_same (sy s) (sy (fst (sstep anc s l))).
Proof.
  intros N1 N2 N3.
  assert (Put : forall y x, ids_same y (fst (put_response y x))).
  { intros y x. unfold put_response, put_base. destruct (Z.eqb _ _); [easy|]. destruct (reg y _) as [q|]; [|easy].
    destruct (handler y q); [easy|]. now destruct (_ || _). }
  assert (Dn : forall y r, ids_same y (fst (item_done y r))).
  { intros y r. unfold item_done. sq. destruct (fifo y) as [|x f]; [easy|].
    set (y2 := set_wait _ _ _ _). assert (E2 : ids_same y y2) by easy. clearbody y2.
    assert (E3 : ids_same y (fst (match r with Some t => put_response y2 t | None => (y2, []) end))).
    { destruct r as [t|]; [|exact E2]. destruct (Put y2 t) as (P1 & P2 & P3), E2 as (Q1 & Q2 & Q3).
      unfold ids_same. now rewrite P1, P2, P3. }
    destruct (match r with Some t => put_response y2 t | None => (y2, []) end) as [y3 o]. cbn [fst] in E3.
    now destruct (existsb _ o). }
  assert (Scan : forall y p q t, ids_same y (fst (get_scan y p q t))).
  { intros y p q t. unfold get_scan. destruct (Z.eqb _ _); [now destruct (respq y q)|]. now destruct (take_tid _ _) as [[? ?]|]. }
  destruct l as [l|r|k|rv rnd|rsp|]; cbn [sstep].
  - destruct l as [s0|s0 lk|r0|s0 t p|s0|s0| |s0|a|k|rel rnd|rel rnd| | |rel rnd|rsp|x|p s0 t|p|s0 d|s0 b];
      cbn [passes step]; try easy; try (exfalso; eapply N1; reflexivity); try (exfalso; eapply N2; reflexivity);
      try (exfalso; eapply N3; reflexivity).
    + assert (E : ids_same (sy s) (fst (send_request (sy s) s0 t p))).
      { unfold send_request. destruct (Z.ltb _ _); [easy|]. sq. now destruct (fifo (sy s)). }
      destruct (send_request (sy s) s0 t p). exact E.
    + destruct (iwait (sy s) s0) as [[]|]; try easy. now destruct (Z.eqb _ _).
    + pose proof (Put (sy s) x) as E. destruct (put_response (sy s) x). exact E.
    + unfold get_call. destruct (respq (sy s) s0); [easy|]. pose proof (Scan (sy s) p s0 t) as E.
      destruct (get_scan (sy s) p s0 t). exact E.
    + unfold get_wake. destruct (getters (sy s) p) as [g|]; [|easy]. pose proof (Scan (sy s) p (g_seq g) (g_tid g)) as E.
      destruct (g_size g).
      * destruct (Nat.eqb _ _); [easy|]. destruct (get_scan (sy s) p (g_seq g) (g_tid g)). exact E.
      * destruct (respq (sy s) (g_seq g)); [easy|]. destruct (get_scan (sy s) p (g_seq g) (g_tid g)). exact E.
  - unfold grant_run. destruct (wst s r) as [[c [|]]|]; try easy. destruct (Nat.eqb c (lsize s)); [easy|]. sl.
    assert (G : ids_same (sy s) (fst (granted (clear (sy s)) r))).
    { unfold granted. destruct (find _ _) as [[? ?]|]; [|easy]. now destruct (existsb _ _). }
    destruct (granted (clear (sy s)) r) as [y1 o]. now destruct o.
  - unfold drv_call. destruct (drv s); try easy. destruct k; sl.
    + now destruct (_ && negb (zero s)).
    + now destruct (requested _).
    + now destruct (requested _).
    + now destruct (called _).
  - assert (Item : forall k, ids_same (sy s) (sy (fst (drv_item s k)))).
    { intros k. unfold drv_item. destruct (fifo (sy s)) as [|x f]; [now destruct k|]. destruct k; try easy.
      pose proof (Dn (sy s) None) as E. now destruct (item_done (sy s) None). }
    unfold drv_run. destruct (drv s) as [|k|k [|]| |k]; try easy; try apply Item.
    + unfold drv_choose. destruct (choose anc (sy s) (relevant rv) rnd) as [|i| |]; try easy.
      * destruct k; sl; try easy; now destruct (irrelevant anc (sy s) rv).
      * assert (H : ids_same (sy s) (fst (select (sy s) i))) by (unfold select; now destruct (nth_error _ i)).
        destruct (select (sy s) i) as [y1 o]. now destruct k.
    + now destruct (Nat.eqb _ _).
  - pose proof (Dn (sy s) rsp) as E. now destruct (item_done (sy s) rsp).
  - now destruct (registered (sy s)).
Qed.

(** A sequence that has not ended and was started or made a request is registered; one that
    has an id and has not ended is registered too. *)
Definition known (y : sqr) (q : nat) : Prop := (0 < sid y q)%Z -> reg y (sid y q) = Some q.
Lemma known_register y s0 q : rinv y -> known y q -> known (register y s0) q.
Proof.
  intros R Kn. unfold known, register. destruct (Z.gtb _ 0); [exact Kn|]. sq. unfold upd.
  destruct (Nat.eqb_spec q s0) as [->|]; [now rewrite Z.eqb_refl|].
  destruct (Z.eqb_spec (sid y q) (next_sid y)) as [X|X]; [pose proof (ri_lt _ R q); lia|apply Kn].
Qed.
Lemma live_step anc s l q : rinv (sy s) -> known (sy s) q -> l <> SCore (LExit q) ->
  let y := sy (fst (sstep anc s l)) in
  rinv y /\ known y q /\ (live (sy s) q -> live y q)
  /\ (l = SCore (LStart q) \/ (exists lk, l = SCore (LRequest q lk)) -> live y q).
Proof.
  intros R Kn N. cbn zeta.
  assert (Oth : ids_same (sy s) (sy (fst (sstep anc s l))) ->
    rinv (sy (fst (sstep anc s l))) /\ known (sy (fst (sstep anc s l))) q
    /\ (live (sy s) q -> live (sy (fst (sstep anc s l))) q)).
  { intros E. destruct (rinv_same _ _ E R) as [H1 H2]. split; [exact H1|]. split; [|auto].
    destruct E as (_ & E2 & E3). unfold known. now rewrite E2, E3. }
  destruct l as [l|r|k|rv rnd|rsp|].
  2-6: destruct Oth as (O1 & O2 & O3); [apply ids_sstep; discriminate|];
    split; [exact O1|]; split; [exact O2|]; split; [exact O3|]; intros [H|(lk & H)]; discriminate.
  destruct l as [s0|s0 lk|r0|s0 t p|s0|s0| |s0|a|k|rel rnd|rel rnd| | |rel rnd|rsp|x|p s0 t|p|s0 d|s0 b].
  all: try (destruct Oth as (O1 & O2 & O3); [apply ids_sstep; discriminate|];
    split; [exact O1|]; split; [exact O2|]; split; [exact O3|]; intros [H|(lk0 & H)]; discriminate).
  - (* start *)
    clear Oth. cbn [sstep passes step start]. sl.
    set (y1 := set_ids (set_resp (sy s) (upd (respq (sy s)) s0 []) (depth (sy s)) (handler (sy s)) (getters (sy s)))
               (next_sid (sy s)) (upd (sid (sy s)) s0 (-1)%Z) (reg (sy s))).
    change (set_ids _ _ _ _) with y1.
    assert (R1 : rinv y1).
    { destruct R as [A1 A2 A3 A4]. constructor; unfold y1; sq; auto.
      - intros q0. unfold upd. destruct (Nat.eqb q0 s0); [lia|auto].
      - intros q1 q2. unfold upd. destruct (Nat.eqb_spec q1 s0), (Nat.eqb_spec q2 s0); subst; auto; intros H E; try lia. }
    destruct (rinv_register y1 s0 R1) as (R2 & R3 & R4).
    assert (L0 : live (register y1 s0) s0).
    { apply R4; [auto|]. unfold y1; sq. rewrite upd_eq. lia. }
    split; [exact R2|].
    destruct (Nat.eq_dec q s0) as [->|Nq].
    + split; [intros _; apply L0|]. auto.
    + assert (Ek : live (sy s) q -> live y1 q).
      { unfold live, y1. sq. now rewrite upd_neq. }
      split; [|split; [auto|]].
      * apply known_register; [exact R1|]. unfold known, y1. sq. rewrite upd_neq by auto. exact Kn.
      * intros [H|(lk & H)]; [|discriminate]. injection H as <-. congruence.
  - (* request *)
    clear Oth. cbn [sstep].
    destruct (rinv_register (sy s) s0 R) as (R2 & R3 & R4).
    assert (E0 : ids_same (register (sy s) s0) (fst (request (sy s) s0 lk))) by easy.
    set (y1 := register (sy s) s0) in *.
    destruct (request (sy s) s0 lk) as [y2 o]. cbn [fst] in E0. sl.
    rename E0 into E.
    destruct (rinv_same _ _ E R2) as [H1 H2].
    assert (Kq : known y1 q).
    { now apply known_register. }
    split; [exact H1|]. split; [destruct E as (_ & E2 & E3); unfold known; now rewrite E2, E3|].
    split; [auto|]. intros [H|(lk0 & H)]; [discriminate|]. injection H as <- <-. apply H2, R4; auto.
  - (* exit of another sequence *)
    clear Oth. assert (Nq : s0 <> q) by congruence. cbn [sstep]. pose proof (eq_refl (remove_seq anc (sy s) s0)) as E.
    unfold remove_seq in E at 2. destruct (remove_seq anc (sy s) s0) as [y1 o]. injection E as E _.
    assert (E1 : next_sid y1 = next_sid (sy s) /\ sid y1 = sid (sy s)
                 /\ reg y1 = fun i => if (i =? sid (sy s) s0)%Z then None else reg (sy s) i).
    { rewrite E. destruct (filter (gone anc (sy s) s0) (arbq (sy s))), (filter _ (locks (sy s))); sq; auto. }
    destruct E1 as (E1 & E2 & E3).
    assert (G : rinv y1 /\ known y1 q /\ (live (sy s) q -> live y1 q)).
    { split; [|split].
      - destruct R as [A1 A2 A3 A4]. constructor; rewrite ?E1, ?E2, ?E3; auto.
        intros i q0. destruct (Z.eqb _ _); [discriminate|apply A4].
      - unfold known. rewrite E2, E3. intros H. destruct (Z.eqb_spec (sid (sy s) q) (sid (sy s) s0)) as [X|X]; [|auto].
        apply (ri_inj _ R) in X; auto. congruence.
      - unfold live. rewrite E1, E2, E3. intros [H H']. split; [auto|].
        destruct (Z.eqb_spec (sid (sy s) q) (sid (sy s) s0)) as [X|X]; [|auto].
        apply (ri_inj _ R) in X; [congruence|lia]. }
    destruct (_ + _); sl; (destruct G as (G1 & G2 & G3); split; [exact G1|]; split; [exact G2|]; split; [exact G3|];
      intros [H|(lk & H)]; discriminate).
Qed.

Lemma live_sel anc q ls : ~ In (SCore (LExit q)) ls ->
  In (SCore (LStart q)) ls \/ (exists lk, In (SCore (LRequest q lk)) ls) ->
  let y := sy (fst (run_machine (sstep anc) sel0 ls)) in
  (0 < sid y q)%Z /\ reg y (sid y q) = Some q /\ (sid y q < next_sid y)%Z.
Proof.
  intros N S0. cbn zeta.
  assert (G : let y := sy (fst (run_machine (sstep anc) sel0 ls)) in
     rinv y /\ known y q /\ (In (SCore (LStart q)) ls \/ (exists lk, In (SCore (LRequest q lk)) ls) -> live y q)).
  { clear S0. induction ls as [|l ls IH] using rev_ind.
    - cbn. split; [constructor; cbn; intros; try lia; discriminate|]. split; [unfold known; cbn; lia|].
      intros [[]|(? & [])].
    - cbn zeta in *. destruct IH as (I1 & I2 & I3); [intros H; apply N, in_app_iff; auto|].
      rewrite run_machine_app. cbn [run_machine].
      set (s := fst (run_machine (sstep anc) sel0 ls)) in *.
      assert (Nl : l <> SCore (LExit q)) by (intros ->; apply N, in_app_iff; right; now left).
      destruct (live_step anc s l q I1 I2 Nl) as (J1 & J2 & J3 & J4).
      destruct (sstep anc s l) as [s1 o]. cbn [fst] in *. split; [exact J1|]. split; [exact J2|].
      intros [H|(lk & H)]; apply in_app_iff in H as [H|[H|[]]].
      + apply J3, I3. auto.
      + apply J4. auto.
      + apply J3, I3. eauto.
      + apply J4. eauto. }
  destruct G as (_ & _ & G). destruct (G S0) as [[? ?] ?]. auto.
Qed.

(** ** After stop_sequences *)
Definition deaf (s : sel) : Prop :=
  (requested (sy s) = true \/ zero s = true) /\ (drv s = DIdle \/ drv s = DFifo KNext).

Lemma req_keep anc y l : passes l = true -> requested (fst (step anc y l)) = requested y.
Proof.
  intros P. destruct l as [s0|s0 lk|r0|s0 t p|s0|s0| |s0|a|k|rel rnd|rel rnd| | |rel rnd|rsp|x|p s0 t|p|s0 d|s0 b];
    try discriminate P; cbn [step]; try reflexivity.
  - unfold start, register. sq. now destruct (Z.gtb _ _).
  - unfold send_request. destruct (Z.ltb _ _); [auto|]. sq. now destruct (fifo y).
  - destruct (iwait y s0) as [[]|]; try reflexivity. now destruct (Z.eqb _ _).
  - unfold put_response, put_base. destruct (Z.eqb _ _); [auto|]. destruct (reg y _) as [q|]; [|auto].
    destruct (handler y q); [auto|]. now destruct (_ || _).
  - unfold get_call, get_scan. destruct (respq y s0) eqn:E; [auto|]. destruct (Z.eqb _ _); [auto|].
    now destruct (take_tid _ _) as [[? ?]|].
  - unfold get_wake, get_scan. destruct (getters y p) as [g|]; [|auto].
    destruct (g_size g); [destruct (Nat.eqb _ _); [auto|]|].
    + destruct (Z.eqb _ _); [now destruct (respq y (g_seq g))|]. now destruct (take_tid _ _) as [[? ?]|].
    + destruct (respq y (g_seq g)) eqn:E; [auto|]. destruct (Z.eqb _ _); [auto|]. now destruct (take_tid _ _) as [[? ?]|].
Qed.

Lemma deaf_step anc s l : next_only l -> deaf s ->
  deaf (fst (sstep anc s l)) /\ forall r q, ~ In (Ev (OSelected r q)) (snd (sstep anc s l)).
Proof.
  intros O [Rq D]. unfold deaf. destruct l as [l|r0|k|rv rnd|rsp|]; cbn [sstep].
  - assert (P : passes l = true \/ (exists q lk, l = LRequest q lk) \/ (exists q, l = LExit q) \/ sstep anc s (SCore l) = (s, [])).
    { destruct l; cbn; eauto. }
    destruct P as [P|[(q & lk & -> )|[(q & -> )|P]]].
    + assert (E : sstep anc s (SCore l) = (set_sy s (fst (step anc (sy s) l)), map Ev (snd (step anc (sy s) l)))).
      { destruct l; try discriminate P; cbn [sstep passes]; now destruct (step anc (sy s) _). }
      cbn [sstep] in E. rewrite E. sl. rewrite (req_keep anc _ _ P). split; [auto|].
      intros r q H. apply in_map_iff in H as (o & [= ->] & H).
      apply sel_choose in H as (rel & rnd & i & z & A & _). destruct A as [-> | [-> | -> ]]; discriminate P.
    + destruct (request (sy s) q lk) as [y1 o] eqn:E. sl.
      assert (R1 : requested y1 = requested (sy s)).
      { unfold request, register in E. injection E as <- _. destruct (Z.gtb _ _); now destruct lk. }
      rewrite R1. split.
      * split; [exact Rq|]. destruct D as [-> | ->]; auto.
      * intros r q0 H. apply in_map_iff in H as (e & [= ->] & H). unfold request in E. injection E as _ <-.
        destruct lk; cbn in H; intuition discriminate.
    + destruct (remove_seq anc (sy s) q) as [y1 o] eqn:E.
      assert (R1 : requested y1 = requested (sy s)).
      { unfold remove_seq in E. injection E as <- _.
        now destruct (filter (gone anc (sy s) q) (arbq (sy s))), (filter _ (locks (sy s))). }
      assert (Q : forall r q0, ~ In (Ev (OSelected r q0)) (map Ev o)).
      { intros r q0 H. apply in_map_iff in H as (e & [= ->] & H). unfold remove_seq in E. injection E as _ <-.
        apply in_map_iff in H as (? & ? & _). discriminate. }
      sl. destruct (_ + _); sl; rewrite R1; (split; [|exact Q]); (split; [exact Rq|]); auto.
      destruct D as [-> | ->]; auto.
    + cbn [sstep] in P. rewrite P. sl. split; [auto|intros r q []].
  - unfold grant_run. destruct (wst s r0) as [[c [|]]|]; sl; try (split; [auto|intros r q []]).
    destruct (Nat.eqb c (lsize s)); sl; [split; [auto|intros r q []]|].
    destruct (granted (clear (sy s)) r0) as [y1 o] eqn:E. destruct o as [|e o]; sl; [split; [auto|intros r q []]|].
    unfold granted in E. destruct (find _ _) as [[? ?]|]; [|discriminate]. destruct (existsb _ _); [|discriminate].
    injection E as <- <- <-. sq. split; [auto|]. intros r q [H|[]]. discriminate.
  - destruct k; try (destruct O; fail). unfold drv_call. destruct D as [D|D]; rewrite D; sl.
    + assert (B : negb (requested (sy s)) && negb (zero s) = false).
      { destruct Rq as [-> | ->]; [reflexivity|apply andb_false_r]. }
      rewrite B. sl. split; [auto|]. intros r q H. destruct (called (sy s) && negb (one s)); [destruct H as [H|[]]; discriminate|destruct H].
    + rewrite D. split; [auto|intros r q []].
  - unfold drv_run. destruct D as [D|D]; rewrite D; sl; [rewrite D; split; [auto|intros r q []]|].
    unfold drv_item. destruct (fifo (sy s)); sl; [rewrite D; split; [auto|intros r q []]|].
    split; [auto|]. intros r q [H|[]]. discriminate.
  - destruct O.
  - destruct (registered (sy s)); sl; (split; [auto|]); intros r q [H|[]]; discriminate.
Qed.
