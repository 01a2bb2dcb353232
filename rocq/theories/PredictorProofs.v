From Coq Require Import ZArith List Bool Arith Lia Permutation.
From Verif Require Import Prelude RegFieldModel RegModel RegProofs RegMapModel PredictorModel PredictorSpec.
Import ListNotations.
Open Scope Z_scope.

Notation run c := (run_machine (write c)).

(** ** The pending table *)
Lemma get_set_eq r i l : get_p r (set_p r i l) = Some i.
Proof.
  induction l as [|[k j] l IH]; cbn [set_p get_p]; [now rewrite Nat.eqb_refl|].
  destruct (Nat.eqb_spec k r) as [->|N]; cbn [get_p]; [now rewrite Nat.eqb_refl|].
  rewrite (proj2 (Nat.eqb_neq k r) N). exact IH.
Qed.
Lemma get_set_neq r q i l : r <> q -> get_p q (set_p r i l) = get_p q l.
Proof.
  intros N. induction l as [|[k j] l IH]; cbn [set_p get_p].
  - now rewrite (proj2 (Nat.eqb_neq r q) N).
  - destruct (Nat.eqb_spec k r) as [->|N']; cbn [get_p].
    + now rewrite (proj2 (Nat.eqb_neq r q) N).
    + destruct (Nat.eqb k q); [reflexivity|exact IH].
Qed.
Lemma get_del_neq r q l : r <> q -> get_p q (del_p r l) = get_p q l.
Proof.
  intros N. induction l as [|[k j] l IH]; cbn [del_p get_p]; [reflexivity|].
  destruct (Nat.eqb_spec k r) as [->|N']; cbn [get_p].
  - now rewrite (proj2 (Nat.eqb_neq r q) N).
  - destruct (Nat.eqb k q); [reflexivity|exact IH].
Qed.
Lemma keys_set r i l q : In q (map fst (set_p r i l)) <-> q = r \/ In q (map fst l).
Proof.
  induction l as [|[k j] l IH]; cbn [set_p map fst In]; [intuition congruence|].
  destruct (Nat.eqb_spec k r) as [->|N]; cbn [map fst In]; [intuition congruence|]. rewrite IH. tauto.
Qed.
Lemma keys_del r l q : In q (map fst (del_p r l)) -> In q (map fst l).
Proof.
  induction l as [|[k j] l IH]; cbn [del_p map fst In]; [tauto|].
  destruct (Nat.eqb_spec k r) as [->|N]; cbn [map fst In]; tauto.
Qed.
Lemma nodup_set r i l : NoDup (map fst l) -> NoDup (map fst (set_p r i l)).
Proof.
  induction l as [|[k j] l IH]; cbn [set_p map fst]; intros H; [repeat constructor; auto|].
  inversion H as [|? ? Hk Hl]; subst. destruct (Nat.eqb_spec k r) as [->|N]; cbn [map fst]; constructor; auto.
  rewrite keys_set. intros [E|I]; [congruence|contradiction].
Qed.
Lemma nodup_del r l : NoDup (map fst l) -> NoDup (map fst (del_p r l)).
Proof.
  induction l as [|[k j] l IH]; cbn [del_p map fst]; intros H; [constructor|].
  inversion H as [|? ? Hk Hl]; subst. destruct (Nat.eqb_spec k r) as [->|N]; cbn [map fst]; [assumption|].
  constructor; auto. intros I. apply keys_del in I. contradiction.
Qed.
Lemma get_none r l : ~ In r (map fst l) -> get_p r l = None.
Proof.
  induction l as [|[k j] l IH]; cbn [get_p map fst In]; intros H; [reflexivity|].
  destruct (Nat.eqb_spec k r) as [->|N]; [tauto|]. apply IH. tauto.
Qed.
Lemma get_key r l : get_p r l <> None <-> In r (map fst l).
Proof.
  split.
  - intros H. destruct (in_dec Nat.eq_dec r (map fst l)) as [I|N]; [exact I|]. now rewrite get_none in H.
  - induction l as [|[k j] l IH]; cbn [get_p map fst In]; [tauto|].
    destruct (Nat.eqb_spec k r) as [->|N]; [discriminate|]. intros [E|I]; [congruence|auto].
Qed.
Lemma get_del_eq r l : NoDup (map fst l) -> get_p r (del_p r l) = None.
Proof.
  induction l as [|[k j] l IH]; cbn [del_p get_p map fst]; intros H; [reflexivity|].
  inversion H as [|? ? Hk Hl]; subst. destruct (Nat.eqb_spec k r) as [->|N]; [now apply get_none|].
  cbn [get_p]. rewrite (proj2 (Nat.eqb_neq k r) N). now apply IH.
Qed.

(** ** One step *)
Definition wf (y : predictor) : Prop := NoDup (map fst (pend y)).
Lemma wf_step c y x : wf y -> wf (fst (write c y x)).
Proof.
  unfold wf, write. intros H. destruct (lookup c _ _) as [r|]; [|exact H]. cbv zeta.
  set (info := match get_p r (pend y) with Some i => i | None => _ end). clearbody info.
  destruct (existsb _ _); destruct (index_of _ _); try destruct (Nat.eqb _ _);
    try destruct (reg_predict _ _ _ _ _ _) as [rg' [ok|]]; cbn [fst pend]; auto using nodup_set, nodup_del.
Qed.
Lemma wf_run c xs : forall y, wf y -> wf (fst (run c y xs)).
Proof.
  induction xs as [|x xs IH]; intros y H; cbn [run_machine]; [exact H|].
  pose proof (wf_step c y x H) as H1. destruct (write c y x) as [y1 o1]. cbn [fst] in H1. specialize (IH y1 H1).
  destruct (run c y1 xs) as [y2 o2]. exact IH.
Qed.

(** What a step does to the register concerned depends on its own entry only. *)
Definition local (c : cfg) (r : nat) (p : option pinfo) (rg : reg) (x : xfer) : option pinfo * reg * list out :=
  let y := fst (write c (Pr (match p with Some i => [(r, i)] | None => [] end) (fun _ => rg)) x) in
  (get_p r (pend y), regs y r, snd (write c (Pr (match p with Some i => [(r, i)] | None => [] end) (fun _ => rg)) x)).

Lemma step_for c y x r : wf y -> for_reg c r x = true ->
  get_p r (pend (fst (write c y x))) = fst (fst (local c r (get_p r (pend y)) (regs y r) x)) /\
  regs (fst (write c y x)) r = snd (fst (local c r (get_p r (pend y)) (regs y r) x)) /\
  snd (write c y x) = snd (local c r (get_p r (pend y)) (regs y r) x) /\
  filter (about r) (snd (write c y x)) = snd (write c y x) /\
  (forall q, q <> r -> get_p q (pend (fst (write c y x))) = get_p q (pend y) /\
     regs (fst (write c y x)) q = regs y q /\ filter (about q) (snd (write c y x)) = []).
Proof.
  intros W. unfold for_reg, local, write. destruct (lookup c _ _) as [q|]; [|discriminate].
  intros E. apply Nat.eqb_eq in E. subst q. cbn [pend regs].
  assert (E1 : match get_p r (match get_p r (pend y) with Some i => [(r, i)] | None => [] end) with
     Some i => i | None => PInfo [] (x_kind x) 0 end =
     match get_p r (pend y) with Some i => i | None => PInfo [] (x_kind x) 0 end).
  { destruct (get_p r (pend y)); cbn [get_p]; [now rewrite Nat.eqb_refl|reflexivity]. }
  rewrite E1. clear E1.
  assert (W1 : NoDup (map fst (match get_p r (pend y) with Some i => [(r, i)] | None => [] end))).
  { destruct (get_p r (pend y)); repeat constructor. auto. }
  set (info := match get_p r (pend y) with Some i => i | None => _ end). clearbody info.
  set (single := match get_p r (pend y) with Some i => [(r, i)] | None => [] end) in *. clearbody single.
  assert (A1 : Nat.eqb r r = true) by apply Nat.eqb_refl.
  assert (A2 : forall q, q <> r -> Nat.eqb r q = false) by (intros q N; apply Nat.eqb_neq; congruence).
  destruct (existsb (Z.eqb (x_addr x)) (p_addr info)); destruct (index_of _ _) as [i|];
    try destruct (Nat.eqb (length _) (length _));
    try (destruct (if is_read (p_kind info) && check_on_read c r then _ else _) as [|m ms] eqn:Em; [|
      assert (m = OMismatch r /\ ms = []) as [-> ->] by
        (destruct (_ && _) in Em; [|discriminate Em]; destruct (do_check _ _ _ _) in Em; [discriminate Em|injection Em; auto])]);
    try destruct (reg_predict _ _ _ _ _ _) as [rg' [ok|]]; cbn [fst snd pend regs app filter about]; rewrite ?A1;
    rewrite ?get_del_eq, ?get_set_eq, ?upd_eq by auto using nodup_set, nodup_del;
    (split; [reflexivity|]; split; [reflexivity|]; split; [reflexivity|]; split; [reflexivity|]);
    intros q N; rewrite ?A2, ?get_del_neq, ?get_set_neq, ?get_del_neq, ?get_set_neq, ?upd_neq by congruence; auto.
Qed.
Lemma step_not_for c y x r : wf y -> for_reg c r x = false ->
  get_p r (pend (fst (write c y x))) = get_p r (pend y) /\ regs (fst (write c y x)) r = regs y r /\
  filter (about r) (snd (write c y x)) = [].
Proof.
  intros W H. destruct (lookup c (x_addr x) (is_read (x_kind x))) as [q|] eqn:E.
  - assert (Hq : for_reg c q x = true) by (unfold for_reg; rewrite E; apply Nat.eqb_refl).
    unfold for_reg in H. rewrite E in H. apply Nat.eqb_neq in H.
    destruct (step_for c y x q W Hq) as (_ & _ & _ & _ & K). apply K. congruence.
  - unfold write. rewrite E. cbn. auto.
Qed.

(** ** Registers do not disturb each other *)
Definition same_for (r : nat) (y z : predictor) : Prop :=
  get_p r (pend y) = get_p r (pend z) /\ regs y r = regs z r.
Lemma run_filter c r xs : forall y z, wf y -> wf z -> same_for r y z ->
  same_for r (fst (run c y xs)) (fst (run c z (filter (for_reg c r) xs))) /\
  filter (about r) (snd (run c y xs)) = snd (run c z (filter (for_reg c r) xs)).
Proof.
  induction xs as [|x xs IH]; intros y z Wy Wz S; [cbn; auto|]. cbn [filter].
  destruct (for_reg c r x) eqn:F.
  - destruct (step_for c y x r Wy F) as (Y1 & Y2 & Y3 & Y4 & _).
    destruct (step_for c z x r Wz F) as (Z1 & Z2 & Z3 & Z4 & _).
    cbn [run_machine]. pose proof (wf_step c y x Wy) as Wy1. pose proof (wf_step c z x Wz) as Wz1.
    destruct (write c y x) as [y1 o1]. destruct (write c z x) as [z1 o2]. cbn [fst snd] in *.
    destruct S as [S1 S2]. rewrite <- S1, <- S2 in *.
    destruct (IH y1 z1 Wy1 Wz1) as [S' O']; [split; congruence|].
    destruct (run c y1 xs) as [y2 p1]. destruct (run c z1 _) as [z2 p2]. cbn [fst snd] in *.
    split; [exact S'|]. rewrite filter_app, Y4, O'. congruence.
  - destruct (step_not_for c y x r Wy F) as (Y1 & Y2 & Y3).
    cbn [run_machine]. pose proof (wf_step c y x Wy) as Wy1.
    destruct (write c y x) as [y1 o1]. cbn [fst snd] in *.
    destruct (IH y1 z Wy1 Wz) as [S' O']; [destruct S; split; congruence|].
    destruct (run c y1 xs) as [y2 p1]. cbn [fst snd] in *. split; [exact S'|]. now rewrite filter_app, Y3, O'.
Qed.

(** ** One register *)
Lemma index_nth a l i : index_of a l = Some i -> nth_error l i = Some a.
Proof.
  revert i. induction l as [|b l IH]; intros i; cbn [index_of]; [discriminate|].
  destruct (Z.eqb_spec a b) as [->|N]; [intros E; injection E as <-; reflexivity|].
  destruct (index_of a l) as [j|]; [|discriminate]. intros E. injection E as <-. cbn. now apply IH.
Qed.
Lemma index_in a l : In a l -> exists i, index_of a l = Some i.
Proof.
  induction l as [|b l IH]; [intros []|]. cbn [index_of]. destruct (Z.eqb_spec a b) as [->|N]; [eauto|].
  intros [E|I]; [congruence|]. destruct (IH I) as [i ->]. eauto.
Qed.
Lemma nodup_nth (l : list Z) i j a : NoDup l -> nth_error l i = Some a -> nth_error l j = Some a -> i = j.
Proof.
  intros ND Hi Hj. apply (proj1 (NoDup_nth_error l) ND); [|congruence]. apply nth_error_Some. congruence.
Qed.
Lemma assembled_nil A w : assembled A w [] 0.
Proof. intros i Hi. rewrite Z.testbit_0_l. split; [discriminate|]. intros (x & j & [] & _). Qed.
Lemma assembled_snoc A w l v x i : NoDup A -> 0 <= w -> assembled A w l v -> index_of (x_addr x) A = Some i ->
  assembled A w (l ++ [x]) (Z.lor v (Z.shiftl (x_data x) (Z.of_nat i * w * 8))).
Proof.
  intros ND Hw H Hi k Hk. apply index_nth in Hi. rewrite Z.lor_spec, Z.shiftl_spec by assumption.
  rewrite orb_true_iff, (H k Hk). split.
  - intros [(x' & j & I & E & L & T)|T].
    + exists x', j. rewrite in_app_iff. auto.
    + exists x, i. split; [apply in_app_iff; right; now left|]. split; [exact Hi|].
      destruct (Z_lt_dec (k - Z.of_nat i * w * 8) 0) as [Ln|Ln]; [rewrite Z.testbit_neg_r in T by assumption; discriminate T|].
      split; [lia|]. rewrite <- T. f_equal. lia.
  - intros (x' & j & I & E & L & T). apply in_app_iff in I. destruct I as [I|[<-|[]]]; [left; eauto 6|].
    right. rewrite (nodup_nth A i j _ ND Hi E). rewrite <- T. f_equal. lia.
Qed.
Lemma assembled_fun A w l v v' : 0 <= w -> (forall x, In x l -> 0 <= x_data x) \/ True ->
  assembled A w l v -> assembled A w l v' -> v = v'.
Proof.
  intros Hw _ H H'. apply Z.bits_inj'. intros i Hi. specialize (H i Hi). specialize (H' i Hi).
  destruct (Z.testbit v i), (Z.testbit v' i); try reflexivity; exfalso.
  - assert (false = true) by tauto. discriminate.
  - assert (false = true) by tauto. discriminate.
Qed.

Lemma predict_all_ok rg v k m : Forall (fun f => 0 <= lsb f) (fields rg) ->
  exists ok, snd (reg_predict rg v (pk k) FrontOrPredict m (-1)) = POk ok.
Proof.
  intros HF. unfold reg_predict. replace (is_direct (pk k)) with false by (destruct k; reflexivity). rewrite andb_false_r.
  destruct (predict_fields_all (busy rg) v (pk k) FrontOrPredict m (fields rg) true HF) as (fs' & ok' & E & _).
  rewrite E. cbn. eauto.
Qed.
Lemma do_predict_lsb b f v k p m be ok f' ok' : do_predict b f v k p m be ok = Some (f', ok') -> lsb f' = lsb f.
Proof.
  unfold do_predict. destruct (_ =? 0); [discriminate|].
  destruct k; [intros E; injection E as <- _; destruct f; reflexivity|intros E; injection E as <- _; destruct f; reflexivity|].
  destruct p; repeat (destruct (is_in _ _)); intros E; injection E as <- _; destruct f; reflexivity.
Qed.
Lemma predict_lsb rg v k m : Forall (fun f => 0 <= lsb f) (fields rg) ->
  Forall (fun f => 0 <= lsb f) (fields (fst (reg_predict rg v (pk k) FrontOrPredict m (-1)))).
Proof.
  intros HF. unfold reg_predict. replace (is_direct (pk k)) with false by (destruct k; reflexivity). rewrite andb_false_r.
  destruct (predict_fields_all (busy rg) v (pk k) FrontOrPredict m (fields rg) true HF) as (fs' & ok' & E & F2).
  rewrite E. cbn [fst with_fields fields]. clear E. induction F2 as [|f f' fs fs' (o & o' & E) F2 IH]; [constructor|].
  inversion HF; subst. constructor; [rewrite (do_predict_lsb _ _ _ _ _ _ _ _ _ _ E); assumption|]. apply IH; assumption.
Qed.

Section OneReg.
Variables (c : cfg) (r : nat).
Hypothesis ND : NoDup (addrs c r).
Hypothesis NE : addrs c r <> [].
Hypothesis HW : 0 <= width c.
Definition proper (x : xfer) : Prop := for_reg c r x = true /\ In (x_addr x) (addrs c r) /\ x_be x = -1.

(** The pending entry while the transfers [o] are open. *)
Definition open_state (o : list xfer) (p : option pinfo) : Prop :=
  match o with
  | [] => p = None
  | x :: _ => exists v, p = Some (PInfo (map x_addr o) (x_kind x) v) /\ assembled (addrs c r) (width c) o v
  end.

Lemma existsb_addr a l : existsb (Z.eqb a) l = true <-> In a l.
Proof.
  rewrite existsb_exists. split.
  - intros (b & I & E). apply Z.eqb_eq in E. now subst b.
  - intros I. exists a. split; [exact I|apply Z.eqb_refl].
Qed.
(** What is in the table before the transfer [x]. *)
Lemma open_info o p x : open_state o p ->
  exists v, match p with Some i => i | None => PInfo [] (x_kind x) 0 end = PInfo (map x_addr o) (x_kind (hd x o)) v /\
    assembled (addrs c r) (width c) o v.
Proof.
  destruct o as [|z o]; cbn [open_state hd].
  - intros ->. exists 0. split; [reflexivity|apply assembled_nil].
  - intros (v & -> & H). exists v. auto.
Qed.
Lemma one_step y x o : wf y -> proper x -> open_state o (get_p r (pend y)) ->
  Forall (fun f => 0 <= lsb f) (fields (regs y r)) ->
  let y' := fst (write c y x) in let os := snd (write c y x) in
  (In (x_addr x) (map x_addr o) -> (length o < length (addrs c r))%nat ->
     os = [OCollision r] /\ regs y' r = regs y r /\ get_p r (pend y') = None) /\
  (~ In (x_addr x) (map x_addr o) ->
     ((length (o ++ [x]) < length (addrs c r))%nat ->
        os = [] /\ regs y' r = regs y r /\ open_state (o ++ [x]) (get_p r (pend y'))) /\
     (length (o ++ [x]) = length (addrs c r) ->
        exists v, assembled (addrs c r) (width c) (o ++ [x]) v /\
          os = (if is_read (x_kind (hd x o)) && check_on_read c r
                  && negb (do_check (combine (fields (regs y r)) (nocheck c r)) (reg_get_mirrored (regs y r)) v (rights_of c r))
               then [OMismatch r] else []) ++ [OPublished r (x_kind (hd x o)) v] /\
          regs y' r = fst (reg_predict (regs y r) v (pk (x_kind (hd x o))) FrontOrPredict (rights_of c r) (-1)) /\
          get_p r (pend y') = None)).
Proof.
  intros W (HF & HI & HB) HO HL. destruct (open_info o _ x HO) as (v & EI & HA).
  unfold for_reg in HF. unfold write. destruct (lookup c _ _) as [q|]; [|discriminate HF].
  apply Nat.eqb_eq in HF. subst q. cbv zeta. rewrite EI. cbn [p_addr p_kind p_value].
  destruct (index_in _ _ HI) as [i Ei]. rewrite Ei, HB.
  pose proof (assembled_snoc _ _ _ _ _ _ ND HW HA Ei) as HA'.
  split.
  - intros IN LT. rewrite (proj2 (existsb_addr _ _) IN).
    rewrite map_length. rewrite (proj2 (Nat.eqb_neq (length o) (length (addrs c r)))) by lia.
    cbn [fst snd pend regs]. split; [reflexivity|]. split; [reflexivity|]. apply get_del_eq. now apply nodup_set.
  - intros NI. destruct (existsb (Z.eqb (x_addr x)) (map x_addr o)) eqn:EE; [apply existsb_addr in EE; contradiction|].
    assert (EL : length (map x_addr o ++ [x_addr x]) = length (o ++ [x])) by (rewrite !app_length, map_length; reflexivity).
    rewrite EL. split.
    + intros LT. rewrite (proj2 (Nat.eqb_neq (length (o ++ [x])) (length (addrs c r)))) by lia.
      cbn [fst snd pend regs]. split; [reflexivity|]. split; [reflexivity|]. rewrite get_set_eq.
      assert (EM : map x_addr o ++ [x_addr x] = map x_addr (o ++ [x])) by (rewrite map_app; reflexivity).
      rewrite EM. destruct o as [|z o]; cbn [app open_state hd]; eexists; (split; [reflexivity|]); exact HA'.
    + intros EQ. rewrite (proj2 (Nat.eqb_eq _ _) EQ). eexists. split; [exact HA'|].
      set (v' := Z.lor v _) in *. clearbody v'.
      destruct (predict_all_ok (regs y r) v' (x_kind (hd x o)) (rights_of c r) HL) as [ok Eok].
      destruct (reg_predict _ _ _ _ _ _) as [rg' res]. cbn [snd] in Eok. subst res. cbn [fst snd pend regs app].
      split; [|split; [apply upd_eq|apply get_del_eq; now repeat apply nodup_set]].
      destruct (is_read _ && check_on_read c r); [|reflexivity]. destruct (do_check _ _ _ _); reflexivity.
Qed.

Lemma accesses_open n xs es o : (0 < n)%nat -> accesses n xs es o -> (length o < n)%nat.
Proof. intros Hn. induction 1; cbn; auto. Qed.

Lemma history xs es o : accesses (length (addrs c r)) xs es o -> Forall proper xs ->
  forall y, wf y -> get_p r (pend y) = None -> Forall (fun f => 0 <= lsb f) (fields (regs y r)) ->
  heard c r (regs y r) es (snd (run c y xs)) (regs (fst (run c y xs)) r) /\
  open_state o (get_p r (pend (fst (run c y xs)))) /\
  Forall (fun f => 0 <= lsb f) (fields (regs (fst (run c y xs)) r)).
Proof.
  intros Ac HP y W P0 HL.
  assert (LA : (0 < length (addrs c r))%nat) by (destruct (addrs c r); [contradiction|cbn; lia]).
  induction Ac as [|xs es o x Ac IH NI LT|xs es o x Ac IH NI EQ|xs es o x Ac IH IN].
  { cbn [run_machine fst snd]. split; [constructor|]. split; [exact P0|exact HL]. }
  all: apply Forall_app in HP as [HP Hx]; inversion Hx as [|? ? Hpx _]; subst; clear Hx; specialize (IH HP);
    destruct IH as (H1 & H2 & H3); rewrite run_machine_app; cbn [fst snd];
    pose proof (wf_run c xs y W) as W1; destruct (run c y xs) as [y1 o1]; cbn [fst snd] in *;
    pose proof (one_step y1 x o W1 Hpx H2 H3) as S; cbv zeta in S; cbn [run_machine];
    destruct (write c y1 x) as [y2 o2]; cbn [fst snd] in *; rewrite app_nil_r; destruct S as [S1 S2].
  - destruct (S2 NI) as [S3 _]. destruct (S3 LT) as (-> & E & HO). rewrite app_nil_r, E. auto.
  - destruct (S2 NI) as [_ S3]. destruct (S3 EQ) as (v & HA & -> & -> & E). split; [|split; [exact E|now apply predict_lsb]].
    assert (EO : exists rest, o ++ [x] = hd x o :: rest) by (destruct o as [|z o]; cbn; eauto).
    destruct EO as [rest EO]. eapply h_complete; eauto.
  - destruct (S1 IN (accesses_open _ _ _ _ LA Ac)) as (-> & -> & E). split; [now constructor|]. auto.
Qed.
End OneReg.
