(** C66, C102, C103: FIFO registers. *)
From Coq Require Import ZArith List Bool Arith Lia.
From Verif Require Import Prelude RegFieldModel RegModel RegFifoModel.
Import ListNotations.
Local Open Scope Z_scope.

(** ** Specification: a bounded queue with a reader. *)
Section Spec.
Context (capacity width : Z) (chk : bool).
Record aq := AQ { items : list Z; reading : bool }.
Definition fits (v : Z) : Z := v mod 2 ^ width.
Definition push (a : aq) (v : Z) : aq :=
  if Z.of_nat (length (items a)) <? capacity then AQ (items a ++ [fits v]) (reading a) else a.
Definition pop (a : aq) (seen : Z) : aq * list rfout :=
  match items a with
  | [] => (a, [])
  | x :: q => (AQ q (reading a), if chk && negb (x =? fits seen) then [MirrorMismatch (fits seen) x] else [])
  end.
Definition aqstep (a : aq) (l : rflab) : aq * list rfout :=
  match l with
  | SetV v => (push a v, [])
  | GetV => (a, match items a with [] => [GetRaise] | x :: _ => [GetRet x] end)
  | Predict v PWrite _ _ => (push a v, [])
  | Predict v PDirect _ _ => (if reading a then a else push a v, [])
  | Predict v PRead _ _ => pop a v
  | ReadCall =>
      if reading a then (a, [])
      else match items a with [] => (a, [ReadRet false]) | _ => (AQ (items a) true, [BusRead]) end
  | BusDone v ok auto _ =>
      if reading a then
        let '(a, o) := if ok && auto then pop a v else (a, []) in (AQ (items a) false, o ++ [ReadRet ok])
      else (a, [])
  | _ => (a, [])
  end.
Definition aq0 : aq := AQ [] false.
(** No write() and no update(); writes are predicted through a map that allows them. *)
Definition plain (l : rflab) : Prop :=
  match l with
  | WriteCall _ | UpdateCall | UpdateNext => False
  | Predict _ PWrite p m => p = BackPath \/ m = Backdoor \/ m = Map RtRW
  | _ => True
  end.
End Spec.

(** What update() is expected to send: the last [k] values of the model. *)
Definition preloaded (k : nat) (q : list Z) : list Z := skipn (length q - k) q.
Definition bus_writes (tr : list rfout) : list Z := flat_map (fun o => match o with BusWrite v => [v] | _ => [] end) tr.
(** update() running alone: for each write, the outcome of the bus operation. *)
Definition update_alone (bs : list (bool * bool * via)) : list rflab :=
  UpdateCall :: flat_map (fun b => [UpdateNext; PreWrite; BusDone 0 (fst (fst b)) (snd (fst b)) (snd b)]) bs ++ [UpdateNext].

(** ** Proofs *)
Lemma mask_mod v n : 0 <= n -> Z.land v (Z.shiftl 1 n - 1) = v mod 2 ^ n.
Proof.
  intros H. rewrite Z.shiftl_1_l. replace (2 ^ n - 1) with (Z.ones n) by (rewrite Z.ones_equiv; lia).
  now rewrite Z.land_ones.
Qed.
Lemma mod_mod v n : 0 <= n -> (v mod 2 ^ n) mod 2 ^ n = v mod 2 ^ n.
Proof. intros H. apply Z.mod_mod. apply Z.pow_nonzero; lia. Qed.
Lemma set_rw f v : access f = RW -> 0 <= size f -> desired (f_set f v) = v mod 2 ^ size f.
Proof.
  intros Ha Hs. unfold f_set, set_value. rewrite Ha. cbn [desired with_desired].
  unfold get_mask. rewrite mask_mod by exact Hs.
  destruct (Z.eqb_spec (Z.shiftr v (size f)) 0) as [E|E]; [|reflexivity].
  rewrite Z.shiftr_div_pow2 in E by exact Hs.
  assert (0 < 2 ^ size f) by (apply Z.pow_pos_nonneg; lia).
  rewrite Z.mod_eq by lia. rewrite E. lia.
Qed.

Record FInv (c n : Z) (chk : bool) (s : rfifo) : Prop := {
  fi_cap : cap s = c;
  fi_chk : check s = chk;
  fi_n : n_bits (rf s) = n;
  fi_f : exists f, fields (rf s) = [f] /\ access f = RW /\ size f = n /\ lsb f = 0;
  fi_len : len s <= c;
  fi_vals : Forall (fun v => v mod 2 ^ n = v) (fq s)
}.

Section P.
Context (c n : Z) (chk : bool) (Hn : 0 < n).
Notation FI := (FInv c n chk).

Lemma fifo_set_full s v : FI s -> len s = c -> fifo_set s v = s.
Proof. intros H E. unfold fifo_set. rewrite (fi_cap _ _ _ _ H), E, Z.eqb_refl. reflexivity. Qed.
Lemma fifo_set_room s v : FI s -> len s < c -> exists r,
  fifo_set s v = with_q s r (fq s ++ [v mod 2 ^ n]) (set_cnt s + 1) /\ busy r = busy (rf s) /\ FI (fifo_set s v).
Proof.
  intros H E. pose proof H as [Hc Hk Hnb (f & Hf & Ha & Hs & Hl) Hlen Hv].
  unfold fifo_set. rewrite Hc. destruct (Z.eqb_spec (len s) c); [lia|].
  set (w := Z.land v (Z.shiftl 1 (n_bits (rf s)) - 1)).
  assert (Ew : w = v mod 2 ^ n) by (unfold w; rewrite Hnb; apply mask_mod; lia).
  assert (Es : slice w f = w).
  { unfold slice. rewrite Hl, Z.shiftr_0_r, Hs, mask_mod, Ew by lia. apply mod_mod. lia. }
  assert (Evv : value_value (with_q s (reg_set (rf s) w) (fq s) (set_cnt s + 1)) = v mod 2 ^ n).
  { unfold value_value, reg_set. cbn [rf with_q with_fields fields]. rewrite Hf. cbn [map].
    rewrite set_rw by (auto; lia). rewrite Es, Ew, Hs. apply mod_mod. lia. }
  exists (reg_set (rf s) w). rewrite Evv. cbn [set_cnt with_q fq]. split; [reflexivity|]. split; [reflexivity|].
  constructor; cbn; auto.
  - exists (f_set f (slice w f)). rewrite Hf. cbn. auto.
  - unfold len in *. cbn [fq with_q]. rewrite app_length. cbn. lia.
  - apply Forall_app. split; [exact Hv|]. repeat constructor. apply mod_mod. lia.
Qed.

(** A prediction of the field: only the value matters. *)
Lemma predict_field_cases b f v k p m ok : access f = RW -> size f = n -> lsb f = 0 ->
  exists f' ok', do_predict b f (slice v f) k p m (Z.shiftr (-1) (Z.quot (lsb f) 8)) ok = Some (f', ok') /\
    access f' = RW /\ size f' = n /\ lsb f' = 0 /\
    (k <> PDirect \/ b = false -> ok' = ok) /\
    (k = PDirect \/ (k = PWrite /\ (p = BackPath \/ m = Backdoor \/ m = Map RtRW)) -> desired f' = v mod 2 ^ n).
Proof.
  intros Ha Hs Hl. unfold do_predict. rewrite Hl. change (Z.quot 0 8) with 0. rewrite Z.shiftr_0_r.
  change (Z.land 1 (-1) =? 0) with false. cbv iota.
  assert (Esl : Z.land (slice v f) (get_mask f) = v mod 2 ^ n).
  { unfold slice, get_mask. rewrite Hl, Z.shiftr_0_r, Hs, !mask_mod by lia. apply mod_mod. lia. }
  destruct k.
  - eexists _, _. split; [reflexivity|]. cbn. repeat split; auto. intros [H| ->]; [congruence|reflexivity].
  - eexists _, _. split; [reflexivity|]. cbn [with_both with_written access size lsb desired].
    repeat split; auto. intros [H|[_ H]]; [congruence|].
    assert ((match p with FrontOrPredict => XpredictX f (mirrored f) (Z.land (slice v f) (get_mask f)) m | BackPath => Z.land (slice v f) (get_mask f) end)
      = v mod 2 ^ n) as ->.
    { destruct p; [|exact Esl]. unfold XpredictX, get_access. rewrite Ha.
      destruct H as [H|[-> | ->]]; [discriminate H|exact Esl|exact Esl]. }
    unfold get_mask. cbn [size with_written]. rewrite Hs, mask_mod by lia. apply mod_mod. lia.
  - destruct p.
    + unfold get_access. rewrite Ha. destruct m as [|[]]; cbn; eexists _, _; (split; [reflexivity|]); cbn; repeat split; auto;
        intros [H|[H _]]; congruence.
    + eexists _, _. split; [reflexivity|]. cbn. repeat split; auto. intros [H|[H _]]; congruence.
Qed.

(** The field prediction as a whole. *)
Lemma reg_part s v k p m ok : FI s -> exists r x,
  (if busy (rf s) && is_direct k then (rf s, POk false)
   else let '(fs, x) := predict_fields (busy (rf s)) (fields (rf s)) v k p m (-1) ok in (with_fields (rf s) fs, x)) = (r, x) /\
  busy r = busy (rf s) /\ n_bits r = n_bits (rf s) /\
  (exists f, fields r = [f] /\ access f = RW /\ size f = n /\ lsb f = 0 /\
     (x <> POk false -> (k = PDirect \/ (k = PWrite /\ (p = BackPath \/ m = Backdoor \/ m = Map RtRW))) -> desired f = v mod 2 ^ n)) /\
  x = POk (ok && negb (busy (rf s) && is_direct k)).
Proof.
  intros H. pose proof H as [Hc Hk Hnb (f & Hf & Ha & Hs & Hl) Hlen Hv].
  destruct (busy (rf s) && is_direct k) eqn:Eb.
  - exists (rf s), (POk false). rewrite andb_false_r. repeat split; auto.
    exists f. repeat split; auto. congruence.
  - rewrite Hf. cbn [predict_fields].
    destruct (predict_field_cases (busy (rf s)) f v k p m ok Ha Hs Hl) as (f' & ok' & -> & H1 & H2 & H3 & H4 & H5).
    eexists _, _. split; [reflexivity|]. cbn [busy n_bits with_fields fields]. repeat split; auto.
    + exists f'. auto.
    + rewrite andb_true_r. f_equal. apply H4. revert Eb. destruct (busy (rf s)); intros Eb; [left; destruct k; cbn in Eb; congruence|now right].
Qed.

Lemma predict_inv s v k p m ok : FI s -> FI (fst (fifo_predict s v k p m ok)).
Proof.
  intros H. pose proof H as [Hc Hk Hnb Hf Hlen Hv].
  destruct (reg_part s v k p m ok H) as (r & x & E & Hb & Hnr & (f & Hfr & Ha & Hs & Hl & Hd) & Hx).
  unfold fifo_predict. rewrite E.
  assert (base : forall q m, Forall (fun v => v mod 2 ^ n = v) q -> Z.of_nat (length q) <= c -> FI (with_q s r q m)).
  { intros q m' Hq Hql. constructor; cbn; auto. - congruence. - exists f. auto. }
  destruct x as [[|]|]; cbn [fst]; auto.
  - destruct k.
    + destruct (negb _ && negb _) eqn:Er; [|apply base; auto]. apply base.
      * apply Forall_app. split; [exact Hv|]. repeat constructor. unfold value_value. cbn. rewrite Hfr.
        rewrite Hd by (congruence || auto). apply mod_mod. lia.
      * unfold len in *. cbn in Er. rewrite Hc in Er. apply andb_true_iff in Er as [Er _]. apply negb_true_iff, Z.eqb_neq in Er.
        cbn. rewrite app_length. cbn. lia.
    + destruct (negb _ && negb _) eqn:Er; [|apply base; auto]. apply base.
      * apply Forall_app. split; [exact Hv|]. repeat constructor. unfold value_value. cbn. rewrite Hfr.
        (* the value of a field is kept within the mask whatever the map *)
        clear - E Hn H Hfr Hs. destruct H as [_ _ _ (g & Hg & Hga & Hgs & Hgl) _ _]. rewrite andb_false_r in E. rewrite Hg in E. cbn [predict_fields] in E. unfold do_predict in E.
        destruct (Z.land 1 (Z.shiftr (-1) (lsb g ÷ 8)) =? 0); cbn in E; [discriminate E|].
        injection E as <-. cbn in Hfr. injection Hfr as <-. cbn.
        unfold get_mask. cbn [size with_written]. rewrite Hgs, mask_mod by lia. apply mod_mod. lia.
      * unfold len in *. cbn in Er. rewrite Hc in Er. apply andb_true_iff in Er as [Er _]. apply negb_true_iff, Z.eqb_neq in Er.
        cbn. rewrite app_length. cbn. lia.
    + cbn [fq with_q]. unfold len in Hlen. destruct (fq s) as [|y q]; cbn [fst]; apply base; auto.
      * now inversion Hv.
      * cbn [length] in Hlen. lia.
Qed.
Lemma fi_with_cur s b o : FI s -> FI (with_cur s b o).
Proof. intros [H1 H2 H3 H4 H5 H6]. constructor; auto. Qed.
Lemma fi_with_upd s k b i : FI s -> FI (with_upd s k b i).
Proof. intros [H1 H2 H3 H4 H5 H6]. constructor; auto. Qed.
Lemma set_inv s v : FI s -> FI (fifo_set s v).
Proof.
  intros H. destruct (Z.eq_dec (len s) c) as [E|E]; [now rewrite fifo_set_full|].
  pose proof (fi_len _ _ _ _ H). destruct (fifo_set_room s v H ltac:(lia)) as (r & _ & _ & HI). exact HI.
Qed.
Lemma write_returns_inv s u ok : FI s -> FI (fst (write_returns s u ok)).
Proof.
  intros H. unfold write_returns. destruct u; [|now apply fi_with_cur].
  cbn. destruct (upd_i s); [apply fi_with_upd|]; now apply fi_with_cur.
Qed.
Lemma step_inv s l : FI s -> FI (fst (rfstep s l)).
Proof.
  intros H. destruct l; cbn [rfstep].
  - now apply set_inv.
  - exact H.
  - now apply predict_inv.
  - now apply fi_with_upd.
  - destruct (cur s); [exact H|]. now apply fi_with_cur, set_inv.
  - destruct (cur s); [exact H|]. destruct (fq s); [exact H|]. now apply fi_with_cur.
  - destruct (cur s) as [[v u|v u|]|]; try exact H. destruct (pre_write s).
    + pose proof (write_returns_inv s u false H). destruct (write_returns s u false). exact H0.
    + now apply fi_with_cur.
  - destruct (cur s) as [[v' u|v' u|]|] eqn:Ec; try exact H.
    + assert (FI (fst (if auto then fifo_predict (with_cur s false (Some (WrBus v' u))) v' PWrite FrontOrPredict m ok else (with_cur s false (Some (WrBus v' u)), [])))) as H0
        by (destruct auto; [apply predict_inv|]; now apply fi_with_cur).
      destruct (if auto then _ else _) as [s1 o1]. cbn [fst] in H0.
      pose proof (write_returns_inv s1 u ok H0). destruct (write_returns s1 u ok). exact H1.
    + assert (FI (fst (if auto then fifo_predict (with_cur s false (Some RdBus)) v PRead FrontOrPredict m ok else (with_cur s false (Some RdBus), [])))) as H0
        by (destruct auto; [apply predict_inv|]; now apply fi_with_cur).
      destruct (if auto then _ else _) as [s1 o1]. cbn [fst] in *. now apply fi_with_cur.
  - destruct (upd_i s); [exact H|]. destruct (_ || _); [exact H|]. now apply fi_with_upd.
  - destruct (upd_i s) as [i|]; [|exact H]. destruct (cur s); [exact H|].
    destruct (0 <? set_cnt s); [|now apply fi_with_upd]. destruct (0 <=? i); [|now apply fi_with_upd].
    destruct (nth_q s i); [|now apply fi_with_upd]. now apply fi_with_cur, set_inv.
Qed.
End P.

Definition bits (n : Z) : Z := if n =? 0 then 1 else n.
Lemma init_inv c n chk : 0 <= c -> 0 <= n -> FInv c (bits n) chk (rfifo0 c n chk).
Proof.
  intros Hc Hn. constructor; cbn; auto.
  eexists. split; [reflexivity|]. cbn. unfold bits. destruct (Z.eqb_spec n 0) as [->|E]; [auto|].
  destruct (Z.eqb_spec n 0); [lia|]. auto.
Qed.
Lemma bits_pos n : 0 <= n -> 0 < bits n.
Proof. intros H. unfold bits. destruct (Z.eqb_spec n 0); lia. Qed.
Lemma run_inv c n chk ls : 0 <= c -> 0 <= n -> FInv c (bits n) chk (fst (rfrun c n chk ls)).
Proof.
  intros Hc Hn. unfold rfrun.
  refine (run_machine_inv rfstep (fun s (_ : list rfout) => FInv c (bits n) chk s) _ ls _ [] _).
  - intros s tr l H. apply step_inv; auto using bits_pos.
  - now apply init_inv.
Qed.

(** ** Refinement of the bounded queue *)
Section R.
Context (c n : Z) (chk : bool) (Hn : 0 < n).
Record RInv (s : rfifo) (a : aq) : Prop := {
  ri : FInv c n chk s;
  ri_q : fq s = items a;
  ri_ip : in_prog s = false;
  ri_cur : cur s = if reading a then Some RdBus else None;
  ri_busy : busy (rf s) = reading a
}.
Lemma rinv_q s a r q k : RInv s a -> busy r = busy (rf s) -> FInv c n chk (with_q s r q k) -> RInv (with_q s r q k) (AQ q (reading a)).
Proof. intros [H1 H2 H3 H4 H5] Hb HF. constructor; cbn; auto. congruence. Qed.
Lemma push_room a s v : RInv s a -> len s < c -> push c n a v = AQ (items a ++ [v mod 2 ^ n]) (reading a).
Proof.
  intros [H1 H2 H3 H4 H5] Hl. unfold push. unfold len in Hl. rewrite H2 in Hl.
  destruct (Z.ltb_spec (Z.of_nat (length (items a))) c); [reflexivity|lia].
Qed.
Lemma push_full a s v : RInv s a -> len s = c -> push c n a v = a.
Proof.
  intros [H1 H2 H3 H4 H5] Hl. unfold push. unfold len in Hl. rewrite H2 in Hl.
  destruct (Z.ltb_spec (Z.of_nat (length (items a))) c); [lia|reflexivity].
Qed.
Lemma predict_push s a v k p m : RInv s a -> k = PDirect \/ (k = PWrite /\ (p = BackPath \/ m = Backdoor \/ m = Map RtRW)) ->
  RInv (fst (fifo_predict s v k p m true)) (if reading a && is_direct k then a else push c n a v) /\ snd (fifo_predict s v k p m true) = [].
Proof.
  intros HR Hk. pose proof HR as [H Hq Hip Hcur Hbusy].
  pose proof (predict_inv c n chk Hn s v k p m true H) as HI.
  destruct (reg_part c n chk Hn s v k p m true H) as (r & x & E & Hb & Hnr & (f & Hfr & Ha & Hs & Hl & Hd) & Hx).
  unfold fifo_predict in *. rewrite E in *. rewrite Hbusy in Hx. subst x. cbn [andb] in *.
  assert (Hnr' : k <> PRead) by (destruct Hk as [-> |[-> _]]; discriminate).
  destruct (reading a && is_direct k) eqn:Er; cbn [negb] in *.
  - cbn [fst snd] in *. split; [|reflexivity]. apply (rinv_q s a r (fq s) (set_cnt s)) in HI; auto.
    rewrite Hq in HI at 2. destruct a. exact HI.
  - assert (Hvv : value_value (with_q s r (fq s) (set_cnt s)) = v mod 2 ^ n).
    { unfold value_value. cbn. rewrite Hfr. apply Hd; [discriminate|exact Hk]. }
    rewrite Hvv in *. cbn [len fq with_q cap in_prog] in *. rewrite Hip in *. rewrite (fi_cap _ _ _ _ H) in *.
    assert (Hlen := fi_len _ _ _ _ H). unfold len in *. cbn [fq with_q] in *.
    destruct k; [| |congruence].
    + destruct (Z.eqb_spec (Z.of_nat (length (fq s))) c) as [Ec|Ec]; cbn [negb andb fst snd] in *; (split; [|reflexivity]).
      * rewrite (push_full a s) by auto. apply (rinv_q s a) in HI; auto. rewrite Hq in HI at 2. destruct a; exact HI.
      * rewrite (push_room a s) by (auto; unfold len; lia). apply (rinv_q s a) in HI; auto. rewrite <- Hq. exact HI.
    + destruct (Z.eqb_spec (Z.of_nat (length (fq s))) c) as [Ec|Ec]; cbn [negb andb fst snd] in *; (split; [|reflexivity]).
      * rewrite (push_full a s) by auto. apply (rinv_q s a) in HI; auto. rewrite Hq in HI at 2. destruct a; exact HI.
      * rewrite (push_room a s) by (auto; unfold len; lia). apply (rinv_q s a) in HI; auto. rewrite <- Hq. exact HI.
Qed.
Lemma predict_pop s a v p m ok : RInv s a ->
  RInv (fst (fifo_predict s v PRead p m ok)) (if ok then fst (pop n chk a v) else a) /\
  snd (fifo_predict s v PRead p m ok) = (if ok then snd (pop n chk a v) else []).
Proof.
  intros HR. pose proof HR as [H Hq Hip Hcur Hbusy].
  pose proof (predict_inv c n chk Hn s v PRead p m ok H) as HI.
  destruct (reg_part c n chk Hn s v PRead p m ok H) as (r & x & E & Hb & Hnr & _ & Hx).
  unfold fifo_predict in *. rewrite E in *. cbn [is_direct] in Hx. rewrite andb_false_r in Hx. cbn [negb] in Hx. rewrite andb_true_r in Hx. subst x.
  destruct ok.
  - cbn [fq with_q rf check] in *. unfold pop. rewrite (fi_chk _ _ _ _ H). rewrite Hq in *. destruct (items a) as [|y q] eqn:Ei.
    + cbn [fst snd] in *. split; [|reflexivity]. apply (rinv_q s a) in HI; auto. destruct a; cbn in *; subst; exact HI.
    + cbn [fst snd] in *. split; [now apply (rinv_q s a) in HI|].
      rewrite Hnr, (fi_n _ _ _ _ H), mask_mod by lia. reflexivity.
  - cbn [fst snd] in *. split; [|reflexivity]. apply (rinv_q s a) in HI; auto. rewrite Hq in HI at 2. destruct a; exact HI.
Qed.
Lemma refine_step s a l : RInv s a -> plain l ->
  RInv (fst (rfstep s l)) (fst (aqstep c n chk a l)) /\ snd (rfstep s l) = snd (aqstep c n chk a l).
Proof.
  intros HR Hp. pose proof HR as [H Hq Hip Hcur Hbusy]. destruct l; cbn [rfstep aqstep] in *; try contradiction.
  - split; [|reflexivity]. cbn [fst].
    destruct (Z.eq_dec (len s) c) as [E|E].
    + rewrite fifo_set_full with (c := c) (n := n) (chk := chk) by auto. now rewrite (push_full a s).
    + pose proof (fi_len _ _ _ _ H). destruct (fifo_set_room c n chk Hn s v H ltac:(lia)) as (r & Er & Hb & HI).
      rewrite (push_room a s) by (auto; lia). rewrite Er in *. apply (rinv_q s a) in HI; auto. rewrite Hq in HI at 2. exact HI.
  - cbn [fst snd]. split; [exact HR|]. unfold fifo_get. rewrite Hq. now destruct (items a).
  - destruct k.
    + destruct (predict_push s a v PDirect p m HR) as [H1 H2]; [auto|]. cbn [is_direct] in H1. rewrite andb_true_r in H1. auto.
    + destruct (predict_push s a v PWrite p m HR) as [H1 H2]; [auto|]. cbn [is_direct] in H1. rewrite andb_false_r in H1. auto.
    + exact (predict_pop s a v p m true HR).
  - cbn [fst snd]. split; [|reflexivity]. constructor; cbn; auto. now apply fi_with_upd.
  - rewrite Hcur. destruct (reading a) eqn:Er; [cbn; auto|]. rewrite Hq. destruct (items a) eqn:Ei; [cbn; auto|].
    cbn [fst snd]. split; [|reflexivity]. constructor; cbn; auto; now apply fi_with_cur.
  - rewrite Hcur. destruct (reading a); cbn; auto.
  - rewrite Hcur. destruct (reading a) eqn:Er; [|cbn; auto].
    assert (HR' : RInv (with_cur s false (Some RdBus)) a -> False \/ True) by auto. clear HR'.
    (* the prediction runs with the busy flag off *)
    assert (HRa : RInv (with_cur s false None) (AQ (items a) false)) by (constructor; cbn; auto; now apply fi_with_cur).
    assert (Efp : forall o : option busop, fifo_predict (with_cur s false o) v PRead FrontOrPredict m ok =
       (let '(s', x) := fifo_predict (with_cur s false None) v PRead FrontOrPredict m ok in (with_cur s' (busy (rf s')) o, x))).
    { intros o. unfold fifo_predict. cbn [rf with_cur busy fields n_bits andb is_direct].
      destruct (predict_fields false (fields (rf s)) v PRead FrontOrPredict m (-1) ok) as [fs x].
      destruct x as [[|]|]; [|reflexivity|reflexivity]. cbn [fq with_q with_cur]. destruct (fq s); reflexivity. }
    destruct auto.
    + rewrite (Efp (Some RdBus)).
      destruct (predict_pop _ _ v FrontOrPredict m ok HRa) as [H1 H2].
      destruct (fifo_predict (with_cur s false None) v PRead FrontOrPredict m ok) as [s1 o1]. cbn [fst snd] in *. subst o1.
      destruct H1 as [G1 G2 G3 G4 G5]. rewrite andb_true_r.
      destruct ok.
      * assert (Ep : pop n chk (AQ (items a) false) v = (AQ (items (fst (pop n chk a v))) false, snd (pop n chk a v)))
          by (unfold pop; cbn; destruct (items a) eqn:Ei; cbn; rewrite ?Ei; reflexivity).
        rewrite Ep in *. destruct (pop n chk a v) as [a' o']. cbn [fst snd] in *. split; [|reflexivity].
        constructor; cbn in *; auto. now repeat apply fi_with_cur.
      * cbn in *. split; [|reflexivity]. constructor; cbn in *; auto. now repeat apply fi_with_cur.
    + rewrite andb_false_r. cbn. split; [|reflexivity]. constructor; cbn; auto. now repeat apply fi_with_cur.
Qed.
Lemma refine_run ls : forall s a, RInv s a -> Forall plain ls ->
  RInv (fst (run_machine rfstep s ls)) (fst (run_machine (aqstep c n chk) a ls)) /\
  snd (run_machine rfstep s ls) = snd (run_machine (aqstep c n chk) a ls).
Proof.
  induction ls as [|l ls IH]; intros s a HR Hp; [cbn; auto|].
  inversion Hp as [|? ? Hl Hls]; subst. destruct (refine_step s a l HR Hl) as [H1 H2].
  cbn [run_machine]. destruct (rfstep s l) as [s1 o1], (aqstep c n chk a l) as [a1 o1']. cbn [fst snd] in *.
  destruct (IH s1 a1 H1 Hls) as [H3 H4].
  destruct (run_machine rfstep s1 ls), (run_machine (aqstep c n chk) a1 ls). cbn [fst snd] in *. split; congruence.
Qed.
End R.

(** ** C66 *)
(** In every history the model holds at most its capacity, and values that fit. *)
Theorem C66_capacity c n chk ls : 0 <= c -> 0 <= n ->
  Z.of_nat (length (fq (fst (rfrun c n chk ls)))) <= c /\
  Forall (fun v => 0 <= v < 2 ^ bits n) (fq (fst (rfrun c n chk ls))).
Proof.
  intros Hc Hn. destruct (run_inv c n chk ls Hc Hn) as [_ _ _ _ Hl Hv]. split; [exact Hl|].
  eapply Forall_impl; [|exact Hv]. intros v <-. apply Z.mod_pos_bound. apply Z.pow_pos_nonneg; [lia|].
  pose proof (bits_pos n Hn). lia.
Qed.
(** Every history of set, predictions, get, and read: it behaves like the bounded queue,
    and every call gives what the queue gives. *)
Theorem C66_queue c n chk ls : 0 <= c -> 0 <= n -> Forall plain ls ->
  let a := run_machine (aqstep c (bits n) chk) aq0 ls in
  fq (fst (rfrun c n chk ls)) = items (fst a) /\ snd (rfrun c n chk ls) = snd a.
Proof.
  intros Hc Hn Hp. cbn zeta.
  destruct (refine_run c (bits n) chk (bits_pos n Hn) ls (rfifo0 c n chk) aq0) as [[_ H _ _ _] H2].
  - constructor; try reflexivity. now apply init_inv.
  - exact Hp.
  - auto.
Qed.
Example C66_example :
  let ls := [SetV 300; Predict 5 PWrite FrontOrPredict (Map RtRW); SetV 7; GetV; ReadCall; Predict 9 PDirect FrontOrPredict Backdoor;
             BusDone 44 true true (Map RtRW); ReadCall; BusDone 6 true true (Map RtRW); GetV; ReadCall] in
  Forall plain ls /\
  snd (rfrun 2 8 true ls) = [GetRet 44; BusRead; ReadRet true; BusRead; MirrorMismatch 6 5; ReadRet true; GetRaise; ReadRet false].
Proof. split; [repeat (apply Forall_cons || apply Forall_nil); cbn; auto|reflexivity]. Qed.
Print Assumptions C66_capacity.
Print Assumptions C66_queue.

(** ** C102: write() *)
(** Every write() called, outside update(), while the FIFO has room: it fails, and nothing
    is sent to the DUT. *)
Definition no_update (l : rflab) : Prop := match l with UpdateCall | Randomize => False | _ => True end.
Definition room_at_writes (c n : Z) (chk : bool) (ls : list rflab) : Prop :=
  forall l1 v l2, ls = l1 ++ WriteCall v :: l2 -> Z.of_nat (length (fq (fst (rfrun c n chk l1)))) < c.
Definition WInv (s : rfifo) (tr : list rfout) : Prop :=
  0 <= set_cnt s /\ in_prog s = false /\ upd_i s = None /\
  (match cur s with Some (WrPre _ u) => u = false /\ 0 < set_cnt s | Some (WrBus _ _) => False | _ => True end) /\
  bus_writes tr = [] /\ ~ In (WriteRet true) tr.
Lemma predict_keeps s v k p m ok : let r := fst (fifo_predict s v k p m ok) in
  set_cnt r = set_cnt s /\ in_prog r = in_prog s /\ upd_i r = upd_i s /\ cur r = cur s /\ bus_writes (snd (fifo_predict s v k p m ok)) = [] /\
  ~ In (WriteRet true) (snd (fifo_predict s v k p m ok)) /\ cap r = cap s /\ busy (rf r) = busy (rf s).
Proof.
  unfold fifo_predict. destruct (if busy (rf s) && is_direct k then _ else _) as [r x] eqn:E.
  assert (busy r = busy (rf s)) as Hb.
  { destruct (busy (rf s) && is_direct k); [now injection E as <- _|]. destruct (predict_fields _ _ _ _ _ _ _ _). now injection E as <- _. }
  destruct x as [[|]|]; try (cbn; tauto).
  destruct k; try (destruct (negb _ && negb _); cbn; tauto).
  cbn [fq with_q]. destruct (fq s); [cbn; tauto|]. 
  cbn. repeat split; auto; destruct (check s && _); cbn; auto; intros [H|[]]; discriminate H.
Qed.
Lemma fifo_set_keeps s v : let r := fifo_set s v in
  in_prog r = in_prog s /\ upd_i r = upd_i s /\ cur r = cur s /\ cap r = cap s /\
  (set_cnt r = set_cnt s \/ set_cnt r = set_cnt s + 1) /\ (len s <> cap s -> set_cnt r = set_cnt s + 1).
Proof.
  unfold fifo_set. destruct (Z.eqb_spec (len s) (cap s)); cbn; intuition lia.
Qed.
Lemma bus_writes_app a b : bus_writes (a ++ b) = bus_writes a ++ bus_writes b.
Proof. apply flat_map_app. Qed.
Definition cur_ok (s : rfifo) : Prop :=
  match cur s with Some (WrPre _ u) => u = false /\ 0 < set_cnt s | Some (WrBus _ _) => False | _ => True end.
Lemma winv_mk s tr s' o : WInv s tr -> 0 <= set_cnt s' -> in_prog s' = in_prog s -> upd_i s' = upd_i s -> cur_ok s' ->
  bus_writes o = [] -> ~ In (WriteRet true) o -> WInv s' (tr ++ o).
Proof.
  intros (H0 & Hip & Hu & Hc & Ht & Hr) G1 G2 G3 G4 G5 G6. unfold WInv. rewrite bus_writes_app, Ht, G5, G2, G3.
  split; [exact G1|]. split; [exact Hip|]. split; [exact Hu|]. split; [exact G4|]. split; [reflexivity|].
  intros Hi. apply in_app_or in Hi. tauto.
Qed.
Lemma winv_same s tr o : WInv s tr -> bus_writes o = [] -> ~ In (WriteRet true) o -> WInv s (tr ++ o).
Proof. intros H. pose proof H as (H0 & Hip & Hu & Hc & _). intros. apply (winv_mk s); auto. Qed.
Lemma winv_step s tr l : WInv s tr -> no_update l -> (forall v, l = WriteCall v -> len s <> cap s) ->
  WInv (fst (rfstep s l)) (tr ++ snd (rfstep s l)).
Proof.
  intros HW Hl Hw. pose proof HW as (H0 & Hip & Hu & Hc & _).
  assert (nil_ok : WInv s (tr ++ [])) by (apply winv_same; auto).
  destruct l; cbn [rfstep no_update] in *; try contradiction.
  - destruct (fifo_set_keeps s v) as (E1 & E2 & E3 & _ & E4 & _). cbn [fst snd].
    apply (winv_mk s); auto; [lia|]. unfold cur_ok. rewrite E3. destruct (cur s) as [[]|]; auto. split; [tauto|]. destruct Hc. lia.
  - cbn [fst snd]. apply winv_same; auto; unfold fifo_get; destruct (fq s); cbn; auto; intros [H|[]]; discriminate H.
  - destruct (predict_keeps s v k p m true) as (E1 & E2 & E3 & E4 & E5 & E6 & _ & _).
    apply (winv_mk s); auto; [lia|]. unfold cur_ok. now rewrite E4, E1.
  - destruct (cur s) as [b|] eqn:Ec; [exact nil_ok|].
    destruct (fifo_set_keeps s v) as (E1 & E2 & _ & _ & _ & E4). specialize (E4 (Hw v eq_refl)). cbn [fst snd].
    apply (winv_mk s); auto; cbn; try lia.
  - destruct (cur s) as [b|] eqn:Ec; [exact nil_ok|].
    destruct (fq s); cbn [fst snd].
    + apply winv_same; auto. intros [H|[]]; discriminate H.
    + apply (winv_mk s); auto; try exact I; intros [H|[]]; discriminate H.
  - destruct (cur s) as [[v u|v u|]|] eqn:Ec; try contradiction; try exact nil_ok.
    destruct Hc as [-> Hs]. unfold pre_write. rewrite Hip. destruct (Z.ltb_spec 0 (set_cnt s)); [|lia].
    cbn. apply (winv_mk s); auto; try exact I; intros [H1|[H1|[]]]; discriminate H1.
  - destruct (cur s) as [[v' u|v' u|]|] eqn:Ec; try contradiction; try exact nil_ok.
    destruct auto.
    + destruct (predict_keeps (with_cur s false (Some RdBus)) v PRead FrontOrPredict m ok) as (E1 & E2 & E3 & E4 & E5 & E6 & _ & _).
      destruct (fifo_predict _ _ _ _ _ _) as [s1 o1]. cbn [fst snd] in *. cbn in E1, E2, E3.
      apply (winv_mk s); cbn; auto; try exact I; try lia; [rewrite bus_writes_app, E5; reflexivity|].
      intros Hi. apply in_app_or in Hi as [Hi|[Hi|[]]]; [tauto|discriminate Hi].
    + cbn. apply (winv_mk s); auto; try exact I; intros [H1|[]]; discriminate H1.
  - rewrite Hu. exact nil_ok.
Qed.
Theorem C102_write c n chk ls : 0 <= c -> 0 <= n ->
  Forall no_update ls -> room_at_writes c n chk ls ->
  bus_writes (snd (rfrun c n chk ls)) = [] /\ ~ In (WriteRet true) (snd (rfrun c n chk ls)).
Proof.
  intros Hc Hn Hl Hr.
  assert (WInv (fst (rfrun c n chk ls)) (snd (rfrun c n chk ls))) as (_ & _ & _ & _ & H1 & H2).
  { induction ls as [|l ls IH] using rev_ind.
    - unfold WInv. cbn. repeat split; auto; lia || tauto.
    - apply Forall_app in Hl as [Hl1 Hl2]. inversion Hl2 as [|? ? Hl3 _]; subst.
      assert (E : rfrun c n chk (ls ++ [l]) = (fst (rfstep (fst (rfrun c n chk ls)) l), snd (rfrun c n chk ls) ++ snd (rfstep (fst (rfrun c n chk ls)) l))).
      { unfold rfrun. rewrite run_machine_app. destruct (run_machine rfstep _ ls) as [s o]. cbn. destruct (rfstep s l). cbn. now rewrite app_nil_r. }
      rewrite E. cbn [fst snd]. apply winv_step; auto.
      + apply IH; auto. intros l1 v l2 ->. apply (Hr l1 v (l2 ++ [l])). now rewrite <- app_assoc.
      + intros v ->. specialize (Hr ls v [] eq_refl). pose proof (run_inv c n chk ls Hc Hn) as [HH _ _ _ _ _].
        unfold len. rewrite HH. lia. }
  auto.
Qed.
(** The value is nevertheless in the model. *)
Theorem C102_phantom c n chk ls v : 0 <= c -> 0 <= n ->
  let s := fst (rfrun c n chk ls) in
  in_prog s = false -> 0 <= set_cnt s -> cur s = None -> Z.of_nat (length (fq s)) < c ->
  let r := rfrun c n chk (ls ++ [WriteCall v; PreWrite]) in
  snd r = snd (rfrun c n chk ls) ++ [NeedsUpdate; WriteRet false] /\ fq (fst r) = fq s ++ [v mod 2 ^ bits n].
Proof.
  intros Hc Hn s Hip Hs0 Hcur Hlen. cbn zeta. unfold rfrun. rewrite run_machine_app. fold (rfrun c n chk ls).
  pose proof (run_inv c n chk ls Hc Hn) as HI. fold s in HI.
  destruct (rfrun c n chk ls) as [s' o]. cbn [fst snd] in *. subst s.
  cbn [run_machine rfstep]. rewrite Hcur.
  destruct (fifo_set_room c (bits n) chk (bits_pos n Hn) s' v HI Hlen) as (r & E & _ & _). rewrite E.
  cbn. unfold pre_write. cbn. rewrite Hip. destruct (Z.ltb_spec 0 (set_cnt s' + 1)); [|lia]. cbn. auto.
Qed.
(** What remains: a write to a full FIFO is refused as documented. *)
Theorem C102_full c n chk ls v : 0 <= c -> 0 <= n ->
  let s := fst (rfrun c n chk ls) in
  in_prog s = false -> set_cnt s = 0 -> cur s = None -> Z.of_nat (length (fq s)) = c ->
  let r := rfrun c n chk (ls ++ [WriteCall v; PreWrite]) in
  snd r = snd (rfrun c n chk ls) ++ [FifoFull; WriteRet false] /\ fq (fst r) = fq s.
Proof.
  intros Hc Hn s Hip Hs0 Hcur Hlen. cbn zeta. unfold rfrun. rewrite run_machine_app. fold (rfrun c n chk ls).
  pose proof (run_inv c n chk ls Hc Hn) as HI. fold s in HI.
  destruct (rfrun c n chk ls) as [s' o]. cbn [fst snd] in *. subst s.
  cbn [run_machine rfstep]. rewrite Hcur. rewrite (fifo_set_full c (bits n) chk s' v HI Hlen).
  cbn. unfold pre_write. cbn. rewrite Hip, Hs0. cbn. unfold len. cbn. rewrite (fi_cap _ _ _ _ HI), Hlen.
  rewrite Z.leb_refl. cbn. auto.
Qed.
Example C102_example :
  room_at_writes 2 8 false [WriteCall 7; PreWrite] /\
  rfrun 2 8 false [WriteCall 7; PreWrite] = (fst (rfrun 2 8 false [WriteCall 7; PreWrite]), [NeedsUpdate; WriteRet false]) /\
  fq (fst (rfrun 2 8 false [WriteCall 7; PreWrite])) = [7].
Proof.
  split; [|split; reflexivity]. intros l1 v l2 E. destruct l1 as [|? [|? [|? ?]]]; cbn in E; try discriminate E. reflexivity.
Qed.
Print Assumptions C102_write.
Print Assumptions C102_phantom.
Print Assumptions C102_full.

(** ** C103: update() *)
Section U.
Context (c n : Z) (chk : bool) (Hn : 0 < n).
Notation FI := (FInv c n chk).

Lemma bus_value s v : FI s -> v mod 2 ^ n = v -> pre_write_value (rf s) v = v.
Proof.
  intros [_ _ Hnb (f & Hf & Ha & Hs & Hl) _ _] Hv. unfold pre_write_value. rewrite Hf, Hnb. cbn [fold_left].
  rewrite Hl, Hs, !Z.shiftl_0_r, Z.shiftr_0_r. rewrite mask_mod, Hv by lia.
  assert (Z.land v (Z.shiftl 1 n - 1) = v) as E by (rewrite mask_mod by lia; exact Hv).
  rewrite E. rewrite <- E at 1. rewrite <- Z.land_assoc, Z.land_lnot_diag, Z.land_0_r. apply Z.lor_0_l.
Qed.
Lemma predict_updating s v p m ok : FI s -> in_prog s = true -> fq (fst (fifo_predict s v PWrite p m ok)) = fq s.
Proof.
  intros H Hip. unfold fifo_predict. destruct (if busy (rf s) && _ then _ else _) as [r x].
  destruct x as [[|]|]; cbn; auto. rewrite Hip, andb_false_r. reflexivity.
Qed.

Context (q : list Z) (k : nat) (Hk : (1 <= k <= length q)%nat) (Hc : Z.of_nat (length q) <= c).
Let N := length q.
Let C := Z.to_nat c.
Definition W (j : nat) : Z := nth (N - k + j mod k) q 0.
Definition Ws (j : nat) : list Z := map W (seq 0 j).
Lemma Ws_S j : Ws (S j) = Ws j ++ [W j].
Proof. unfold Ws. rewrite seq_S, map_app. reflexivity. Qed.
Lemma Ws_length j : length (Ws j) = j.
Proof. unfold Ws. now rewrite map_length, seq_length. Qed.
Lemma W_back j : (k <= j)%nat -> W j = W (j - k).
Proof.
  intros H. unfold W. do 2 f_equal. replace j with ((j - k) + 1 * k)%nat at 1 by lia. rewrite Nat.mod_add by lia. reflexivity.
Qed.
Record UInv (s : rfifo) (j : nat) : Prop := {
  u_inv : FI s;
  u_q : fq s = q ++ Ws (Nat.min j (C - N));
  u_cnt : set_cnt s = Z.of_nat (k + Nat.min j (C - N)) - Z.of_nat j;
  u_ip : in_prog s = true;
  u_i : upd_i s = Some (Z.of_nat (N - k + j));
  u_cur : cur s = None
}.
Lemma W_at s j : UInv s j -> (j < C - N + k)%nat -> nth_q s (Z.of_nat (N - k + j)) = Some (W j).
Proof.
  intros [_ Hq _ _ _ _] Hj. unfold nth_q. rewrite Nat2Z.id, Hq.
  destruct (lt_dec j k) as [H|H].
  - rewrite nth_error_app1 by (fold N; lia). unfold W. rewrite Nat.mod_small by exact H. apply nth_error_nth'. fold N. lia.
  - rewrite nth_error_app2 by (fold N; lia). fold N. replace (N - k + j - N)%nat with (j - k)%nat by lia.
    rewrite W_back by lia. unfold Ws. rewrite nth_error_map.
    rewrite (nth_error_nth' (seq 0 (Nat.min j (C - N))) 0%nat) by (rewrite seq_length; lia).
    rewrite seq_nth by lia. reflexivity.
Qed.
Lemma u_iter s j b : UInv s j -> (j < C - N + k)%nat ->
  let r := run_machine rfstep s [UpdateNext; PreWrite; BusDone 0 (fst (fst b)) (snd (fst b)) (snd b)] in
  UInv (fst r) (S j) /\ bus_writes (snd r) = [W j].
Proof.
  intros HU Hj. pose proof (W_at s j HU Hj) as Hw. destruct HU as [HI Hq Hcnt Hip Hi Hcur].
  assert (Hcn : C = N \/ (N < C)%nat) by (unfold C, N in *; lia).
  assert (HWv : W j mod 2 ^ n = W j).
  { destruct HI as [_ _ _ _ _ Hv]. rewrite Forall_forall in Hv. apply Hv. eapply nth_error_In. exact Hw. }
  (* the call of set in write *)
  assert (exists s1, fifo_set s (W j) = s1 /\ FI s1 /\ fq s1 = q ++ Ws (Nat.min (S j) (C - N)) /\
    set_cnt s1 = Z.of_nat (k + Nat.min (S j) (C - N)) - Z.of_nat j /\ in_prog s1 = true /\ upd_i s1 = Some (Z.of_nat (N - k + j)) ) as (s1 & Es & HI1 & Hq1 & Hc1 & Hip1 & Hi1).
  { eexists. split; [reflexivity|]. split; [now apply set_inv|].
    destruct (fifo_set_keeps s (W j)) as (K1 & K2 & _). rewrite K1, K2.
    assert (Hls : len s = Z.of_nat (N + Nat.min j (C - N))) by (unfold len; rewrite Hq, app_length, Ws_length; reflexivity).
    destruct (le_lt_dec (C - N) j) as [Hle|Hlt].
    - rewrite (fifo_set_full c n chk) by (auto; unfold C, N in *; lia).
      rewrite Hq, Hcnt. replace (Nat.min (S j) (C - N)) with (Nat.min j (C - N)) by lia. auto.
    - destruct (fifo_set_room c n chk Hn s (W j) HI) as (r & Er & _ & _); [unfold C, N in *; lia|]. rewrite Er.
      cbn [with_q fq set_cnt]. rewrite Hq, Hcnt, HWv. replace (Nat.min (S j) (C - N)) with (S j) by lia. replace (Nat.min j (C - N)) with j by lia.
      rewrite Ws_S, app_assoc. repeat split; auto. lia. }
  cbn zeta. cbn [run_machine].
  cbn [rfstep]. rewrite Hi, Hcur. destruct (Z.ltb_spec 0 (set_cnt s)); [|lia]. destruct (Z.leb_spec 0 (Z.of_nat (N - k + j))); [|lia].
  rewrite Hw, Es. cbn [cur with_cur].
  assert (Hpw : pre_write (with_cur s1 false (Some (WrPre (W j) true))) = None).
  { unfold pre_write. cbn [in_prog with_cur]. rewrite Hip1. now rewrite !andb_false_r. }
  rewrite Hpw. rewrite (bus_value (with_cur s1 false (Some (WrPre (W j) true)))) by (auto; now apply fi_with_cur).
  cbn [cur with_cur]. set (s2 := with_cur _ false (Some (WrBus (W j) true))).
  assert (H2 : FI s2) by (unfold s2; now repeat apply fi_with_cur).
  set (s3 := if snd (fst b) then fifo_predict s2 (W j) PWrite FrontOrPredict (snd b) (fst (fst b)) else (s2, [])).
  assert (FI (fst s3) /\ fq (fst s3) = fq s1 /\ set_cnt (fst s3) = set_cnt s1 /\ in_prog (fst s3) = true /\ upd_i (fst s3) = upd_i s1 /\ bus_writes (snd s3) = []) as (P1 & P2 & P3 & P4 & P5 & P6).
  { unfold s3. destruct (snd (fst b)).
    - destruct (predict_keeps s2 (W j) PWrite FrontOrPredict (snd b) (fst (fst b))) as (K1 & K2 & K3 & _ & K5 & _).
      rewrite K1, K2, K3, K5. split; [now apply predict_inv|]. split; [now rewrite predict_updating|]. auto.
    - cbn [fst snd]. split; [exact H2|auto 10]. }
  destruct s3 as [s3 o3]. cbn [fst snd] in *.
  unfold write_returns. cbn [upd_i with_cur]. rewrite P5, Hi1. cbn [fst snd].
  rewrite app_nil_r. cbn [app]. split.
  - constructor; cbn [with_upd with_cur fq set_cnt in_prog upd_i cur]; auto.
    + now apply fi_with_upd, fi_with_cur.
    + congruence.
    + lia.
    + f_equal. lia.
  - change (BusWrite (W j) :: o3 ++ []) with ([BusWrite (W j)] ++ (o3 ++ [])). rewrite !bus_writes_app, P6. reflexivity.
Qed.
Lemma u_iters bs : forall s j, UInv s j -> (j + length bs <= C - N + k)%nat ->
  let r := run_machine rfstep s (flat_map (fun b => [UpdateNext; PreWrite; BusDone 0 (fst (fst b)) (snd (fst b)) (snd b)]) bs) in
  UInv (fst r) (j + length bs) /\ bus_writes (snd r) = map W (seq j (length bs)).
Proof.
  induction bs as [|b bs IH]; intros s j HU Hj.
  - cbn. rewrite Nat.add_0_r. auto.
  - cbn [flat_map length] in *. cbn zeta. rewrite run_machine_app.
    destruct (u_iter s j b HU ltac:(lia)) as [H1 H2].
    destruct (run_machine rfstep s [_; _; _]) as [s1 o1]. cbn [fst snd] in *.
    destruct (IH s1 (S j) H1 ltac:(lia)) as [H3 H4]. cbn zeta in *. destruct (run_machine rfstep s1 _) as [s2 o2]. cbn [fst snd] in *.
    replace (j + S (length bs))%nat with (S j + length bs)%nat by lia. split; [exact H3|].
    rewrite bus_writes_app, H2, H4. reflexivity.
Qed.
Lemma u_all s bs : FI s -> fq s = q -> set_cnt s = Z.of_nat k -> upd_i s = None -> cur s = None ->
  length bs = (C - N + k)%nat ->
  let r := run_machine rfstep s (update_alone bs) in
  bus_writes (snd r) = Ws (C - N + k) /\ (exists o, snd r = o ++ [UpdateRet]) /\ fq (fst r) = q ++ Ws (C - N) /\ set_cnt (fst r) = 0 /\ in_prog (fst r) = false.
Proof.
  intros HI Hq Hs Hu Hcur Hb. cbn zeta. unfold update_alone. cbn [run_machine]. cbn [rfstep]. rewrite Hu.
  assert (HN : (1 <= N)%nat) by (unfold N; lia).
  assert (len s = Z.of_nat N) as Hl by (unfold len; now rewrite Hq).
  destruct (Z.eqb_spec (set_cnt s) 0); [lia|]. destruct (Z.eqb_spec (len s) 0); [lia|]. cbn [orb].
  set (s0 := with_upd s (set_cnt s) true (Some (len s - set_cnt s))).
  assert (H0 : UInv s0 0).
  { constructor; cbn; auto.
    - now apply fi_with_upd.
    - now rewrite app_nil_r.
    - lia.
    - f_equal. lia. }
  rewrite run_machine_app. destruct (u_iters bs s0 0 H0 ltac:(lia)) as [H1 H2]. cbn zeta in *.
  destruct (run_machine rfstep s0 _) as [s1 o1]. cbn [fst snd app] in *.
  rewrite Nat.add_0_l in H1. destruct H1 as [G1 G2 G3 G4 G5 G6].
  assert (Nat.min (length bs) (C - N) = C - N)%nat as Em by lia. rewrite Em in *. rewrite Hb in *.
  assert (set_cnt s1 = 0) as Hz by lia.
  cbn [run_machine rfstep]. rewrite G5, G6, Hz. cbn. rewrite bus_writes_app, H2. cbn. rewrite app_nil_r.
  repeat split; auto. eexists. reflexivity.
Qed.
End U.

Lemma skipn_nth {A} (d : A) l k : (k <= length l)%nat -> forall i, nth i (skipn (length l - k) l) d = nth (length l - k + i) l d.
Proof.
  intros _ i. generalize (length l - k)%nat as m. intros m. revert l.
  induction m as [|m IH]; intros l; [reflexivity|]. destruct l; cbn; [now destruct i|apply IH].
Qed.
Lemma map_nth_seq {A} (d : A) (l : list A) : map (fun j => nth j l d) (seq 0 (length l)) = l.
Proof.
  induction l as [|x l IH]; [reflexivity|]. cbn [length seq map nth]. f_equal.
  rewrite <- seq_shift, map_map. exact IH.
Qed.

(** Exactly what update() sends, alone and with [k] values preloaded: the preloaded values
    over and over, until the model is full. *)
Theorem C103_exact c n chk ls k bs : 0 <= c -> 0 <= n ->
  let s := fst (rfrun c n chk ls) in
  upd_i s = None -> cur s = None -> set_cnt s = Z.of_nat k -> (1 <= k <= length (fq s))%nat ->
  let sent := (Z.to_nat c - length (fq s) + k)%nat in
  length bs = sent ->
  let r := run_machine rfstep s (update_alone bs) in
  bus_writes (snd r) = map (fun j => nth (j mod k) (preloaded k (fq s)) 0) (seq 0 sent) /\
  (exists o, snd r = o ++ [UpdateRet]) /\ Z.of_nat (length (fq (fst r))) = c /\ set_cnt (fst r) = 0.
Proof.
  intros Hc Hn s Hu Hcur Hs Hk sent Hb. pose proof (run_inv c n chk ls Hc Hn) as HI. fold s in HI.
  pose proof (fi_len _ _ _ _ HI) as Hl. unfold len in Hl.
  destruct (u_all c (bits n) chk (bits_pos n Hn) (fq s) k Hk Hl s bs HI eq_refl Hs Hu Hcur Hb) as (H1 & H2 & H3 & H4 & _).
  cbn zeta. rewrite H1, H3, H4. split; [|split; [exact H2|split; [|reflexivity]]].
  - unfold Ws. fold sent. apply map_ext_in. intros j _. unfold W, preloaded. rewrite skipn_nth by lia. reflexivity.
  - rewrite app_length, Ws_length. lia.
Qed.
Corollary C103_too_many c n chk ls k bs : 0 <= c -> 0 <= n ->
  let s := fst (rfrun c n chk ls) in
  upd_i s = None -> cur s = None -> set_cnt s = Z.of_nat k -> (1 <= k <= length (fq s))%nat ->
  Z.of_nat (length (fq s)) < c ->
  length bs = (Z.to_nat c - length (fq s) + k)%nat ->
  (k < length (bus_writes (snd (run_machine rfstep s (update_alone bs)))))%nat.
Proof.
  intros Hc Hn s Hu Hcur Hs Hk Hroom Hb.
  destruct (C103_exact c n chk ls k bs Hc Hn Hu Hcur Hs Hk Hb) as (H & _). fold s in H. rewrite H, map_length, seq_length. lia.
Qed.
(** Only a full FIFO is updated as documented. *)
Theorem C103_full c n chk ls k bs : 0 <= c -> 0 <= n ->
  let s := fst (rfrun c n chk ls) in
  upd_i s = None -> cur s = None -> set_cnt s = Z.of_nat k -> (1 <= k <= length (fq s))%nat ->
  Z.of_nat (length (fq s)) = c -> length bs = k ->
  let r := run_machine rfstep s (update_alone bs) in
  bus_writes (snd r) = preloaded k (fq s) /\ (exists o, snd r = o ++ [UpdateRet]) /\ fq (fst r) = fq s /\ set_cnt (fst r) = 0.
Proof.
  intros Hc Hn s Hu Hcur Hs Hk Hfull Hb. pose proof (run_inv c n chk ls Hc Hn) as HI. fold s in HI.
  assert (E : (Z.to_nat c - length (fq s))%nat = 0%nat) by lia.
  destruct (u_all c (bits n) chk (bits_pos n Hn) (fq s) k Hk ltac:(lia) s bs HI eq_refl Hs Hu Hcur) as (H1 & H2 & H3 & H4 & _); [lia|].
  cbn zeta. rewrite H1, H3, H4, E. cbn [Nat.add]. rewrite app_nil_r. split; [|auto].
  unfold Ws. rewrite <- (map_nth_seq 0 (preloaded k (fq s))). unfold preloaded at 2. rewrite skipn_length.
  replace (length (fq s) - (length (fq s) - k))%nat with k by lia.
  apply map_ext_in. intros j Hj. apply in_seq in Hj. unfold W, preloaded. rewrite skipn_nth by lia.
  rewrite Nat.mod_small by lia. reflexivity.
Qed.
Example C103_example :
  let b := (true, true, Map RtRW) in
  (* one value preloaded in a FIFO of four: it is sent four times *)
  bus_writes (snd (rfrun 4 8 false (SetV 9 :: update_alone [b; b; b; b]))) = [9; 9; 9; 9] /\
  bus_writes (snd (rfrun 2 8 false (SetV 9 :: SetV 5 :: update_alone [b; b]))) = [9; 5].
Proof. split; reflexivity. Qed.
(** Values popped by other reads while update() runs make it raise; the model then counts as
    being updated for good, so that writes to a full FIFO are sent instead of refused. *)
Theorem C103_raise_limit :
  let ls := [SetV 9; SetV 5; UpdateCall; Predict 9 PRead FrontOrPredict (Map RtRW); Predict 5 PRead FrontOrPredict (Map RtRW); UpdateNext] in
  let more := [SetV 1; SetV 2; WriteCall 3; PreWrite] in
  snd (rfrun 2 8 false ls) = [UpdateRaise] /\
  in_prog (fst (rfrun 2 8 false ls)) = true /\ upd_i (fst (rfrun 2 8 false ls)) = None /\
  snd (rfrun 2 8 false (ls ++ more)) = [UpdateRaise; BusWrite 3] /\
  snd (rfrun 2 8 false more) = [NeedsUpdate; WriteRet false].
Proof. vm_compute. repeat split. Qed.
Print Assumptions C103_raise_limit.
(** After randomize() the values preloaded before are forgotten: update() sends nothing. *)
Theorem C103_randomize s : upd_i s = None ->
  let s' := fst (rfstep s Randomize) in
  rfstep s' UpdateCall = (s', [UpdateRet]) /\ fq s' = fq s /\ cur s' = cur s.
Proof. intros H. cbn. rewrite H. cbn. auto. Qed.
Example C103_randomize_example :
  set_cnt (fst (rfrun 4 8 false [SetV 9])) = 1 /\ upd_i (fst (rfrun 4 8 false [SetV 9])) = None /\
  snd (rfrun 4 8 false [SetV 9; Randomize; UpdateCall]) = [UpdateRet] /\
  snd (rfrun 4 8 false [SetV 9; UpdateCall]) = [].
Proof. repeat split. Qed.
Print Assumptions C103_randomize.
Print Assumptions C103_exact.
Print Assumptions C103_too_many.
Print Assumptions C103_full.
