(** Properties C119-C122: the built-in register test sequences. *)
From Coq Require Import ZArith List Bool Arith Lia ZifyBool ZifyNat Sorted.
From Verif Require Import RegFieldModel RegFieldSpec RegFieldProofs RegModel RegSpec RegProofs RegSeqModel RegSeqSpec RegSeqProofs.
Import ListNotations.
Open Scope Z_scope.

(** A register with a correct layout, fields in order of position and values that fit (C21, C27). *)
Lemma ready_of n fs : layout n fs -> in_order fs -> Forall FInv fs -> ready fs.
Proof.
  intros [HL HD] HO HI. split.
  - revert HL HD HO. clear. unfold chain, in_order, pairwise_disjoint. induction fs as [|f fs IH]; intros HL HD HO; [constructor|].
    inversion HL as [|? ? L1 L2]; subst. inversion HD as [|? ? D1 D2]; subst. inversion HO as [|? ? O1 O2]; subst.
    constructor; auto. rewrite Forall_forall in *. intros g Hg. specialize (D1 g Hg). specialize (O2 g Hg). specialize (L2 g Hg).
    cbn in *. destruct (Z.lt_ge_cases (lsb g) (lsb f + size f)); [|lia]. exfalso. apply (D1 (lsb g)). unfold covers. lia.
  - rewrite Forall_forall in *. intros f Hf. split; auto. specialize (HL f Hf). cbn in HL. lia.
Qed.

(** C119: no false alarms. *)
Theorem C119_sound : forall D (wr : D -> via -> Z -> D * bool) rd bits done W r nc d ms,
  implements (fields r) wr rd bits done -> in_sync bits done (fields r) d ->
  layout (n_bits r) (fields r) -> in_order (fields r) -> Forall FInv (fields r) -> 0 <= n_bits r ->
  length nc = length (fields r) ->
  (forall f, In f (fields r) -> ~ write_once (access f)) \/ Forall (fun m => m = Map RtRW) ms ->
  n_bytes r * 8 <= W ->
  exists r' d' es, bash wr rd W r nc d ms = (r', d', es, false) /\ (forall e, In e es -> e = BNoBits) /\
    in_sync bits done (fields r') d'.
Proof.
  intros D wr rd bits done W r nc d ms HI HS HL HO HF Hn Hnc HV HW.
  destruct (bash_sound wr rd bits done W nc ms r d) as (r' & d' & es & x & E & G & B & X); auto.
  - destruct HV as [HV|HV].
    + apply Forall_forall. intros m _. now left.
    + eapply Forall_impl; [|exact HV]. intros m ->. now right.
  - split; auto. split; auto. eapply ready_of; eauto.
  - exists r', d', es. rewrite E. rewrite X; auto.
    + split; auto. split; auto. apply G.
    + destruct HL as [HL _]. eapply Forall_impl; [|exact HL]. cbn. intros f (h1 & h2 & h3).
      assert (n_bits r <= n_bytes r * 8); [|lia]. unfold n_bytes. destruct (Z.eq_dec (n_bits r) 0) as [->|]; [cbn; lia|].
      rewrite Z.quot_div_nonneg by lia. pose proof (Z.div_mod (n_bits r - 1) 8). pose proof (Z.mod_pos_bound (n_bits r - 1) 8). lia.
Qed.
Print Assumptions C119_sound.

(** A design for a register with a read/write field, a write-one-to-clear field, a field cleared by
    reading and a write-once field. *)
Definition ex_fields : list field :=
  [Field 2 0 RW false 1 1 false []; Field 2 2 W1C false 3 3 false []; Field 2 5 WSRC false 1 1 false []; Field 1 7 W1 false 0 0 false []].
Definition ex_reg : reg := Reg 8 7 true false ex_fields.
Definition ex_bit (f : field) (d : Z * bool) (m : via) (v i : Z) : bool :=
  write_bit (write_effect (get_access f m)) (snd d) (Z.testbit (fst d) i) (Z.testbit v i).
Definition ex_bits (g : Z -> bool) : Z :=
  fold_right (fun i a => Z.lor (Z.shiftl (Z.b2z (g (Z.of_nat i))) (Z.of_nat i)) a) 0 (seq 0 8).
Definition at_pos (i : Z) : option field := find (fun f => (lsb f <=? i) && (i <? lsb f + size f)) ex_fields.
Definition ex_wr (d : Z * bool) (m : via) (v : Z) : Z * bool * bool :=
  (ex_bits (fun i => match at_pos i with Some f => ex_bit f d m v i | None => false end), snd d || match m with Map RtRW => true | _ => false end, true).
Definition ex_rd (d : Z * bool) (m : via) : Z * bool * Z * bool :=
  (ex_bits (fun i => match at_pos i with Some f => read_bit (read_effect (get_access f m)) (Z.testbit (fst d) i) (Z.testbit (fst d) i) | None => false end),
   snd d, ex_bits (fun i => match at_pos i with Some _ => Z.testbit (fst d) i | None => false end), true).
Lemma ex_bits_ok g i : 0 <= i < 8 -> Z.testbit (ex_bits g) i = g i.
Proof.
  intros Hi. assert (HC : i = 0 \/ i = 1 \/ i = 2 \/ i = 3 \/ i = 4 \/ i = 5 \/ i = 6 \/ i = 7) by lia.
  unfold ex_bits. cbn [seq fold_right].
  destruct HC as [->|[->|[->|[->|[->|[->|[->| ->]]]]]]]; cbn -[Z.testbit Z.lor Z.shiftl];
  destruct (g 0), (g 1), (g 2), (g 3), (g 4), (g 5), (g 6), (g 7); reflexivity.
Qed.
Lemma ex_bits_high g i : 8 <= i -> Z.testbit (ex_bits g) i = false.
Proof.
  intros Hi. unfold ex_bits. cbn -[Z.testbit Z.lor Z.shiftl].
  destruct (g 0), (g 1), (g 2), (g 3), (g 4), (g 5), (g 6), (g 7); cbn -[Z.testbit];
  (apply Z.bits_above_log2; [lia|cbn; lia]) || apply Z.bits_0.
Qed.
Lemma ex_at f i : In f ex_fields -> covers f i -> 0 <= i < 8 /\ at_pos i = Some f.
Proof.
  unfold covers. intros [<-|[<-|[<-|[<-|[]]]]]; cbn; intros Hc; (split; [lia|]); unfold at_pos; cbn -[Z.leb Z.ltb];
  repeat match goal with |- context [if ?c then _ else _] => (replace c with false by lia) || (replace c with true by lia) end; reflexivity.
Qed.
Lemma ex_implements : implements ex_fields ex_wr ex_rd (fun d i => Z.testbit (fst d) i) snd.
Proof.
  constructor.
  - reflexivity.
  - reflexivity.
  - intros d m v f i Hf Hc. destruct (ex_at f i Hf Hc) as [Hi E]. unfold ex_wr. cbn [fst snd]. rewrite ex_bits_ok, E by auto. reflexivity.
  - intros [d b] v. unfold ex_wr. cbn [fst snd]. apply orb_true_r.
  - intros d m f i Hf Hc _. destruct (ex_at f i Hf Hc) as [Hi E]. unfold ex_rd. cbn [fst snd]. now rewrite ex_bits_ok, E by auto.
  - intros d m i Hi Hn. unfold ex_rd. cbn [fst snd]. destruct (Z.lt_ge_cases i 8); [|now apply ex_bits_high].
    rewrite ex_bits_ok by lia. destruct (at_pos i) as [f|] eqn:E; auto. unfold at_pos in E. apply find_some in E. destruct E as [E1 E2].
    exfalso. apply (Hn f E1). unfold covers. lia.
  - intros d m f i Hf Hc. destruct (ex_at f i Hf Hc) as [Hi E]. unfold ex_rd. cbn [fst snd]. now rewrite ex_bits_ok, E by auto.
  - reflexivity.
Qed.
Example C119_example :
  implements (fields ex_reg) ex_wr ex_rd (fun d i => Z.testbit (fst d) i) snd /\
  in_sync (fun d i => Z.testbit (fst d) i) snd (fields ex_reg) (45, false) /\
  layout (n_bits ex_reg) (fields ex_reg) /\ in_order (fields ex_reg) /\ Forall FInv (fields ex_reg) /\
  snd (fst (bash ex_wr ex_rd 64 ex_reg [false; false; false; false] (45, false) [Map RtRW; Map RtRW])) = [].
Proof.
  split; [exact ex_implements|]. split.
  { intros f Hf. assert (HB : forall i, covers f i -> Z.testbit (mirrored f) (i - lsb f) = Z.testbit 45 i).
    { intros i Hc. destruct (ex_at f i Hf Hc) as [Hi _]. unfold covers in Hc.
      destruct Hf as [<-|[<-|[<-|[<-|[]]]]]; cbn in Hc; 
      (assert (HC : i = 0 \/ i = 1 \/ i = 2 \/ i = 3 \/ i = 4 \/ i = 5 \/ i = 6 \/ i = 7) by lia;
       destruct HC as [->|[->|[->|[->|[->|[->|[->| ->]]]]]]]; try lia; reflexivity). }
    split; [destruct Hf as [<-|[<-|[<-|[<-|[]]]]]; reflexivity|]. split; auto.
    destruct Hf as [<-|[<-|[<-|[<-|[]]]]]; reflexivity. }
  split.
  { split.
    - repeat (apply Forall_cons; [cbn; lia|]). apply Forall_nil.
    - unfold pairwise_disjoint. cbn. repeat (apply FOP_cons; [repeat (apply Forall_cons; [unfold disjoint, covers; cbn; lia|]); apply Forall_nil|]).
      apply FOP_nil. }
  split. { unfold in_order. cbn. repeat (apply SSorted_cons; [|repeat (apply Forall_cons; [cbn; lia|]); apply Forall_nil]). apply SSorted_nil. }
  split. { repeat (apply Forall_cons; [unfold FInv, fits_in; cbn; repeat split; try lia; discriminate|]). apply Forall_nil. }
  vm_compute. reflexivity.
Qed.

(** The condition on write-once fields is needed: the model takes a write through a map with
    read-only rights for the one write, the design does not. *)
Definition once_reg : reg := Reg 1 1 true false [Field 1 0 W1 false 0 0 false []].
Definition once_wr (d : bool * bool) (m : via) (v : Z) : bool * bool * bool :=
  match m with Map RtRW | Backdoor => (if snd d then fst d else Z.testbit v 0, true, true) | _ => (d, true) end.
Definition once_rd (d : bool * bool) (m : via) : bool * bool * Z * bool := (d, Z.b2z (fst d), true).
Theorem C119_write_once_limit :
  implements (fields once_reg) once_wr once_rd (fun d i => fst d) snd /\
  in_sync (fun d i => fst d) snd (fields once_reg) (false, false) /\
  snd (fst (bash once_wr once_rd 64 once_reg [false] (false, false) [Map RtRO; Map RtRW])) = [BMismatch 0 1 0] /\
  snd (fst (bash once_wr once_rd 64 once_reg [false] (false, false) [Map RtRW; Map RtRO])) = [].
Proof.
  split.
  { constructor.
    - now intros [? []] [|[]] v.
    - reflexivity.
    - intros [d b] m v f i [<-|[]] Hc. unfold covers in Hc. cbn in Hc. replace i with 0 by lia. now destruct m as [|[]], b.
    - reflexivity.
    - intros [d b] m f i [<-|[]] Hc _. unfold covers in Hc. cbn in Hc. replace i with 0 by lia. now destruct d.
    - intros [d b] m i Hi Hn. specialize (Hn _ (or_introl eq_refl)). unfold covers in Hn. cbn in Hn. cbn [once_rd fst snd].
      apply Z.bits_above_log2; destruct d; cbn; lia.
    - intros [d b] m f i [<-|[]] Hc. now destruct m as [|[]].
    - reflexivity. }
  split.
  { intros f [<-|[]]. repeat split. intros i Hc. unfold covers in Hc. cbn in Hc. now replace i with 0 by lia. }
  split; vm_compute; reflexivity.
Qed.
Print Assumptions C119_write_once_limit.

(** Fields beyond the data width: an exception, before anything is written. *)
Theorem C119_too_wide : forall D (wr : D -> via -> Z -> D * bool) rd W r nc d m ms f,
  In f (fields r) -> length nc = length (fields r) -> W < lsb f + size f ->
  bash wr rd W r nc d (m :: ms) = (r, d, [], true).
Proof.
  intros D wr rd W r nc d m ms f Hf HL HW. cbn [bash]. unfold bash_map.
  assert (Hx : exists b, In (f, b) (combine (fields r) nc)).
  { clear -HL Hf. revert nc HL. induction (fields r) as [|g fs IH]; intros [|b nc] H; try discriminate; [destruct Hf|].
    destruct Hf as [->|Hf]; [exists b; now left|]. destruct (IH Hf nc) as (b' & Hb); [cbn in H; lia|]. exists b'. now right. }
  destruct Hx as (b & Hb). now rewrite (scan_none W m _ 0 _ (f, b) Hb HW).
Qed.
Print Assumptions C119_too_wide.
Example C119_wide_example :
  bash echo_wr (echo_rd (fun v => v)) 64 (Reg 72 0 true false [configure 8 64 RW false 0 true]) [false] 0 [Map RtRW]
  = (Reg 72 0 true false [configure 8 64 RW false 0 true], 0, [], true).
Proof. apply (C119_too_wide _ _ _ _ _ _ _ _ _ (configure 8 64 RW false 0 true)); cbn; auto; lia. Qed.

(** C120: what is detected, for registers of read/write fields. *)
Definition plain_rw (r : reg) : Prop :=
  0 < n_bits r /\ layout (n_bits r) (fields r) /\ in_order (fields r) /\ Forall FInv (fields r) /\
  Forall (fun f => access f = RW /\ desired f = mirrored f) (fields r).
Lemma plain_RW r : plain_rw r -> RWreg r.
Proof.
  intros (Hn & HL & HO & HF & HA). split; [eapply ready_of; eauto|]. destruct HL as [HL _].
  rewrite Forall_forall in *. intros f Hf. destruct (HA f Hf). specialize (HL f Hf). cbn in HL. repeat split; auto. lia.
Qed.
Theorem C120_detects : forall F W r d, plain_rw r -> n_bytes r * 8 <= W ->
  exists r' d' es, bash echo_wr (echo_rd F) W r (map (fun _ => false) (fields r)) d [Map RtRW] = (r', d', es, false) /\
   (es = [] <->
     (forall k, 0 <= k < 8 * n_bytes r ->
        let w := Z.land (Z.lxor (reg_get r) (2 ^ k)) (Z.ones (n_bits r)) in F w = keep (fields r) w) /\
     (fields r <> [] -> F (reg_get r) = reg_get r)).
Proof.
  intros F W r d HP HW. assert (HR := plain_RW r HP). assert (Hn := proj1 HP).
  destruct (RW_bash F W r d Hn HR HW) as (r' & d' & es & E & X). exists r', d', es. split; auto. rewrite X. unfold bit_ok, flip.
  assert (HB : n_bits r <= n_bytes r * 8).
  { unfold n_bytes. rewrite Z.quot_div_nonneg by lia. pose proof (Z.div_mod (n_bits r - 1) 8). pose proof (Z.mod_pos_bound (n_bits r - 1) 8). lia. }
  split.
  - intros H. split.
    + intros k Hk. cbn zeta. rewrite <- Z.shiftl_1_l. apply H; auto.
    + intros Hf. destruct (fields r) as [|f fs] eqn:EF; [congruence|].
      assert (Hc : coverb (fields r) (lsb f) = true).
      { apply coverb_true. exists f. rewrite EF. split; [now left|]. pose proof (RW_pos r HR) as H1. rewrite EF in H1.
        inversion H1; subst. unfold covers. lia. }
      pose proof (RW_cover r (lsb f) HR Hc). rewrite <- EF in *. apply (H (lsb f)); auto. lia.
  - intros [H1 H2] k Hk. split; [specialize (H1 k Hk); cbn zeta in H1; now rewrite <- Z.shiftl_1_l in H1|].
    intros Hc. apply H2. intros EF. rewrite EF in Hc. discriminate.
Qed.
Print Assumptions C120_detects.

Definition rw_reg : reg := Reg 12 9 true false [Field 4 1 RW false 5 5 false []; Field 5 6 RW false 9 9 false []].
Lemma rw_reg_plain : plain_rw rw_reg.
Proof.
  split; [cbn; lia|]. split.
  { split.
    - repeat (apply Forall_cons; [cbn; lia|]). apply Forall_nil.
    - unfold pairwise_disjoint. cbn. repeat (apply FOP_cons; [repeat (apply Forall_cons; [unfold disjoint, covers; cbn; lia|]); apply Forall_nil|]).
      apply FOP_nil. }
  split. { unfold in_order. cbn. repeat (apply SSorted_cons; [|repeat (apply Forall_cons; [cbn; lia|]); apply Forall_nil]). apply SSorted_nil. }
  split. { repeat (apply Forall_cons; [unfold FInv, fits_in; cbn; repeat split; try lia; discriminate|]). apply Forall_nil. }
  repeat constructor.
Qed.
Example C120_example :
  plain_rw rw_reg /\
  snd (fst (bash echo_wr (echo_rd (fun v => Z.land v 0x7DE)) 64 rw_reg [false; false] 0 [Map RtRW])) = [] /\
  snd (fst (bash echo_wr (echo_rd (fun v => Z.land v 0x7DC)) 64 rw_reg [false; false] 0 [Map RtRW])) <> [].
Proof. split; [exact rw_reg_plain|]. split; vm_compute; [reflexivity|discriminate]. Qed.

(** Bits that are stuck, swapped or copied from others are always found. *)
Theorem C120_wiring : forall F W r d, wired F -> plain_rw r -> n_bytes r * 8 <= W ->
  exists r' d' es, bash echo_wr (echo_rd F) W r (map (fun _ => false) (fields r)) d [Map RtRW] = (r', d', es, false) /\
   (es = [] <-> forall v, 0 <= v < 2 ^ n_bits r -> F v = keep (fields r) v).
Proof.
  intros F W r d HF HP HW. destruct (RW_bash F W r d (proj1 HP) (plain_RW r HP) HW) as (r' & d' & es & E & X).
  exists r', d', es. split; auto. rewrite X. apply wired_iff; auto; [apply HP|now apply plain_RW].
Qed.
Print Assumptions C120_wiring.
(** a design with bits 2 and 3 swapped *)
Definition swap23 (v : Z) : Z := Z.lor (Z.land v 0x7D2) (Z.lor (Z.shiftl (Z.b2z (Z.testbit v 2)) 3) (Z.shiftl (Z.b2z (Z.testbit v 3)) 2)).
Example C120_swap_example : length (snd (fst (bash echo_wr (echo_rd swap23) 64 rw_reg [false; false] 0 [Map RtRW]))) <> 0%nat.
Proof. vm_compute. discriminate. Qed.

(** Couplings that need two changed bits are not. *)
Theorem C120_coupling_limit :
  exists F v, 0 <= v < 2 ^ n_bits rw_reg /\ F v <> keep (fields rw_reg) v /\
   snd (fst (bash echo_wr (echo_rd F) 64 rw_reg [false; false] 0 [Map RtRW])) = [].
Proof.
  exists (fun v => if v =? 0 then 2 else Z.land v 0x7DE), 0. split; [cbn; lia|]. split; [discriminate|]. vm_compute. reflexivity.
Qed.
Print Assumptions C120_coupling_limit.

(** Which bits are tested: with a design that refuses every write, each bit tested shows up. *)
Lemma bits_writes {D} (wr : D -> via -> Z -> D * bool) rd W m dc : (forall d m v, snd (wr d m v) = false) ->
  forall n k r d, k + Z.of_nat n <= W ->
  exists r' d' es, bash_bits wr rd W n k r d m dc = (r', d', es, false) /\
    forall j, In (BWrite j) es <-> k <= j < k + Z.of_nat n /\ dc j = false.
Proof.
  intros HW. assert (HB : forall r d k dcm, exists r' d' es, bash_bit wr rd r d m k dcm = (r', d', es) /\
     forall j, In (BWrite j) es <-> j = k).
  { assert (H1 : forall r d k dcm, exists r' d' es, bash_once wr rd r d m k dcm = (r', d', es) /\ forall j, In (BWrite j) es <-> j = k).
    { intros r d k dcm. unfold bash_once. destruct (reg_write _ _ _) as [bv r1]. specialize (HW d m bv). destruct (wr d m bv) as [d1 s1].
      cbn in HW. subst s1. destruct (rd d1 m) as [[d2 v] s2]. eexists _, _, _. split; [reflexivity|]. intros j.
      destruct s2, (_ =? _); cbn; intuition congruence. }
    intros r d k dcm. unfold bash_bit. destruct (H1 r d k dcm) as (r1 & d1 & e1 & -> & I1). destruct (H1 r1 d1 k dcm) as (r2 & d2 & e2 & -> & I2).
    eexists _, _, _. split; [reflexivity|]. intros j. rewrite in_app_iff, I1, I2. tauto. }
  induction n as [|n IH]; intros k r d Hk; cbn [bash_bits].
  - eexists _, _, _. split; [reflexivity|]. intros j. cbn. lia.
  - replace (W <=? k) with false by lia. destruct (dc k) eqn:EK.
    + destruct (IH (k + 1) r d) as (r' & d' & es & -> & I); [lia|]. eexists _, _, _. split; [reflexivity|]. intros j. rewrite I.
      split; intros [H1 H2]; split; auto; try lia. assert (j <> k) by congruence. lia.
    + destruct (HB r d k (mask_of W dc)) as (r1 & d1 & e1 & -> & I1). destruct (IH (k + 1) r1 d1) as (r2 & d2 & e2 & -> & I2); [lia|].
      eexists _, _, _. split; [reflexivity|]. intros j. rewrite in_app_iff, I1, I2. split.
      * intros [->|[H1 H2]]; split; auto; lia.
      * intros [H1 H2]. destruct (Z.eq_dec j k); [now left|right]. split; auto. lia.
Qed.
Lemma dont_care_iff nc f m : dont_care nc f m = false <-> nc = false /\ read_effect (get_access f m) <> RUnreadable.
Proof. unfold dont_care. destruct nc; destruct (get_access f m); cbn; intuition congruence. Qed.
Theorem C120_tested : forall D (wr : D -> via -> Z -> D * bool) rd W r nc d m,
  (forall d m v, snd (wr d m v) = false) ->
  layout (n_bits r) (fields r) -> in_order (fields r) -> Forall FInv (fields r) -> 0 <= n_bits r ->
  length nc = length (fields r) -> n_bytes r * 8 <= W ->
  exists r' d' es, bash wr rd W r nc d [m] = (r', d', es, false) /\
    forall k, In (BWrite k) es <-> 0 <= k < 8 * n_bytes r /\
      forall f b, In (f, b) (combine (fields r) nc) -> covers f k -> b = false /\ read_effect (get_access f m) <> RUnreadable.
Proof.
  intros D wr rd W r nc d m HWr HL HO HF Hn Hnc HW. assert (HR := ready_of _ _ HL HO HF).
  assert (HB : n_bits r <= n_bytes r * 8 /\ 0 <= n_bytes r).
  { unfold n_bytes. destruct (Z.eq_dec (n_bits r) 0) as [->|]; [cbn; lia|].
    rewrite Z.quot_div_nonneg by lia. pose proof (Z.div_mod (n_bits r - 1) 8). pose proof (Z.mod_pos_bound (n_bits r - 1) 8). lia. }
  assert (Hfst : map fst (combine (fields r) nc) = fields r).
  { clear -Hnc. revert nc Hnc. induction (fields r) as [|f l IHl]; intros [|] H; try discriminate; cbn; auto. f_equal. apply IHl. cbn in H. lia. }
  assert (HP : forall P : field -> Prop, Forall P (fields r) -> Forall (fun x : field * bool => P (fst x)) (combine (fields r) nc)).
  { intros P H. apply Forall_map with (f := fst) (P := P). now rewrite Hfst. }
  assert (P1 : Forall (fun f => 0 <= lsb f) (fields r)) by (destruct HL as [HL _]; eapply Forall_impl; [|exact HL]; cbn; tauto).
  assert (P2 : Forall (fun f => 0 < size f) (fields r)) by (destruct HL as [HL _]; eapply Forall_impl; [|exact HL]; cbn; lia).
  assert (P3 : Forall (fun f => lsb f + size f <= W) (fields r)) by (destruct HL as [HL _]; eapply Forall_impl; [|exact HL]; cbn; lia).
  assert (HC : chain (map fst (combine (fields r) nc))) by (rewrite Hfst; apply HR).
  destruct (scan_some W m (combine (fields r) nc) 0 (fun _ => false) HC (HP _ P1) (HP _ P2) (HP _ P3)) as (dc & Hs).
  destruct (scan_spec W m _ _ _ _ HC (HP _ P1) (HP _ P2) Hs) as [S1 S2].
  cbn [bash]. unfold bash_map. rewrite Hs.
  destruct (bits_writes wr rd W m dc HWr (Z.to_nat (n_bytes r * 8)) 0 r d) as (r' & d' & es & -> & I); [lia|].
  eexists _, _, _. split; [reflexivity|]. intros k. rewrite app_nil_r, in_app_iff, I.
  replace (0 + Z.of_nat (Z.to_nat (n_bytes r * 8))) with (8 * n_bytes r) by lia.
  assert (HX : dc k = false <-> forall f b, In (f, b) (combine (fields r) nc) -> covers f k -> b = false /\ read_effect (get_access f m) <> RUnreadable).
  { split.
    - intros E f b Hf Hc. apply dont_care_iff. rewrite <- E. symmetry. now apply S1.
    - intros H. destruct (coverb (fields r) k) eqn:EC.
      + apply coverb_true in EC. destruct EC as (f & Hf & Hc). rewrite <- Hfst in Hf. apply in_map_iff in Hf. destruct Hf as ([g b] & E & Hf).
        cbn in E. subst g. rewrite (proj1 (S1 f b k Hf Hc)). apply dont_care_iff. now apply H.
      + rewrite S2; auto. intros x Hx Hc. apply (proj1 (coverb_false _ _) EC (fst x)); auto. rewrite <- Hfst. now apply in_map. }
  rewrite HX. split; [|tauto]. intros [H|H]; auto. destruct (forallb _ _); cbn in H; intuition discriminate.
Qed.
Print Assumptions C120_tested.
Example C120_tested_example :
  let r := Reg 8 7 true false [Field 2 0 RO false 1 1 false []; Field 2 2 WO false 3 3 false []; Field 2 5 RW false 1 1 false []] in
  snd (fst (bash (fun d m v => (d, false)) (fun d m => (d, Z.lxor d 0, true)) 64 r [false; false; true] 1 [Map RtRW]))
  = [BWrite 0; BWrite 0; BWrite 1; BWrite 1; BWrite 4; BWrite 4; BWrite 7; BWrite 7].
Proof. vm_compute. reflexivity. Qed.

(** C121: the reset test of one register. *)
Theorem C121_register : forall D (rd : D -> via -> D * Z * bool) r nc d m d' v s,
  layout (n_bits r) (fields r) -> in_order (fields r) -> Forall FInv (fields r) -> length nc = length (fields r) ->
  rd d m = (d', v, s) ->
  let es := snd (mirror_check rd r nc d m) in
  (In HStatus es <-> s = false) /\
  (In HCheck es <-> exists i, 0 <= i /\ (forall f, In (f, true) (combine (fields r) nc) -> ~ covers f i) /\
     ((exists f, In f (fields r) /\ covers f i /\ Z.testbit v i <> Z.testbit (mirrored f) (i - lsb f)) \/
      ((forall f, In f (fields r) -> ~ covers f i) /\ Z.testbit v i = true))).
Proof.
  intros D rd r nc d m d' v s HL HO HF Hnc E. cbn zeta. unfold mirror_check. rewrite E. cbn [snd].
  assert (HR := ready_of _ _ HL HO HF). destruct (ready_mirrored r HR) as (_ & C1 & C2).
  assert (Hfst : map fst (combine (fields r) nc) = fields r).
  { clear -Hnc. revert nc Hnc. induction (fields r) as [|f l IHl]; intros [|] H; try discriminate; cbn; auto. f_equal. apply IHl. cbn in H. lia. }
  assert (HP : Forall (fun x : field * bool => 0 < size (fst x) /\ 0 <= lsb (fst x)) (combine (fields r) nc)).
  { apply Forall_map with (f := fst) (P := fun f => 0 < size f /\ 0 <= lsb f). rewrite Hfst. destruct HL as [HL _].
    eapply Forall_impl; [|exact HL]. cbn. tauto. }
  pose proof (do_check_ok (combine (fields r) nc) (reg_get_mirrored r) v m HP) as HD.
  assert (HX : forall c : bool, In HCheck ((if c then [] else [HCheck]) ++ (if s then [] else [HStatus])) <-> c = false).
  { intros []; destruct s; cbn; intuition discriminate. }
  split; [destruct (do_check _ _ _ _), s; cbn; intuition discriminate|]. rewrite HX. split.
  - intros HN.
    assert (HE : exists i, 0 <= i /\ (forall f, In (f, true) (combine (fields r) nc) -> ~ covers f i) /\
        Z.testbit v i <> Z.testbit (reg_get_mirrored r) i).
    { set (ex := map fst (filter snd (combine (fields r) nc))).
      assert (Hex : forall f, In f ex <-> In (f, true) (combine (fields r) nc)).
      { intros f. unfold ex. rewrite in_map_iff. split.
        - intros ([g b] & <- & H). apply filter_In in H. destruct H as [H1 H2]. cbn in *. now subst b.
        - intros H. exists (f, true). split; auto. apply filter_In. auto. }
      set (msk := keep ex (-1)). 
      assert (Hpos : Forall (fun f => 0 < size f /\ 0 <= lsb f) ex).
      { apply Forall_forall. intros f Hf. apply Hex in Hf. rewrite Forall_forall in HP. exact (HP _ Hf). }
      assert (Hm : forall i, 0 <= i -> Z.testbit msk i = coverb ex i).
      { intros i Hi. unfold msk. rewrite keep_bit, Z.bits_m1, andb_true_r by auto. reflexivity. }
      destruct (Z.eq_dec (Z.lor v msk) (Z.lor (reg_get_mirrored r) msk)) as [Eq|Ne].
      - exfalso. apply not_true_iff_false in HN. apply HN. apply HD. intros i Hi Hn.
        assert (EB : Z.testbit (Z.lor v msk) i = Z.testbit (Z.lor (reg_get_mirrored r) msk) i) by now rewrite Eq.
        rewrite !Z.lor_spec, Hm in EB by auto. replace (coverb ex i) with false in EB; [now rewrite !orb_false_r in EB|].
        symmetry. apply coverb_false. intros f Hf. apply Hn. now apply Hex.
      - set (a := Z.lor v msk) in *. set (b := Z.lor (reg_get_mirrored r) msk) in *.
        assert (Hne : Z.lxor a b <> 0) by (intros H; apply Z.lxor_eq in H; auto).
        assert (Hb : exists i, 0 <= i /\ Z.testbit (Z.lxor a b) i = true).
        { destruct (Z.lt_trichotomy (Z.lxor a b) 0) as [H|[H|H]]; [|contradiction|].
          - exists (Z.succ (Z.log2 (Z.pred (- Z.lxor a b)))). pose proof (Z.log2_nonneg (Z.pred (- Z.lxor a b))).
            split; [lia|]. rewrite Z.bits_above_log2_neg; auto; lia.
          - exists (Z.log2 (Z.lxor a b)). split; [apply Z.log2_nonneg|]. now apply Z.bit_log2. }
        destruct Hb as (i & Hi & Hb). rewrite Z.lxor_spec in Hb. exists i. split; auto. unfold a, b in Hb.
        rewrite !Z.lor_spec, Hm in Hb by auto. destruct (coverb ex i) eqn:EC; [rewrite !orb_true_r in Hb; discriminate|].
        rewrite !orb_false_r in Hb. split.
        + intros f Hf. apply (proj1 (coverb_false _ _) EC). now apply Hex.
        + intros Eq. rewrite Eq in Hb. rewrite xorb_nilpotent in Hb. discriminate. }
    destruct HE as (i & Hi & Hn & Hb). exists i. split; auto. split; auto.
    destruct (coverb (fields r) i) eqn:EC.
    + apply coverb_true in EC. destruct EC as (f & Hf & Hc). left. exists f. rewrite (C1 f i Hf Hc) in Hb. auto.
    + right. assert (HN' := proj1 (coverb_false _ _) EC). split; auto. rewrite C2 in Hb by auto. now destruct (Z.testbit v i).
  - intros (i & Hi & Hn & HB). apply not_true_iff_false. intros HT. apply HD with (i := i) in HT; auto.
    destruct HB as [(f & Hf & Hc & Hb)|[HN Hb]].
    + rewrite (C1 f i Hf Hc) in HT. contradiction.
    + rewrite C2 in HT by auto. congruence.
Qed.
Print Assumptions C121_register.
(** The read of the reset test updates the mirror as every read does. *)
Theorem C121_mirror : forall D (rd : D -> via -> D * Z * bool) r nc d m d' v s,
  layout (n_bits r) (fields r) -> in_order (fields r) -> Forall FInv (fields r) -> rd d m = (d', v, s) ->
  exists r' es, mirror_check rd r nc d m = (r', d', es) /\
    Forall2 (fun f f' => size f' = size f /\ lsb f' = lsb f /\ access f' = access f /\
      forall i, covers f i -> Z.testbit (mirrored f') (i - lsb f) =
        read_bit (read_effect (get_access f m)) (Z.testbit (mirrored f) (i - lsb f)) (Z.testbit v i)) (fields r) (fields r').
Proof.
  intros D rd r nc d m d' v s HL HO HF E. destruct (read_full r v m (ready_of _ _ HL HO HF)) as (r' & Er & _ & H2).
  unfold mirror_check. rewrite E, Er. eexists _, _. split; [reflexivity|]. eapply F2_impl; [|exact H2]. cbn.
  intros f f' (B & _ & _ & _ & SH). apply shape_eq in SH. destruct SH as (e1 & e2 & e3). repeat (split; auto).
  intros i Hc. unfold covers in Hc. rewrite B by lia. now replace (i - lsb f + lsb f) with i by lia.
Qed.
Print Assumptions C121_mirror.
Example C121_mirror_example :
  let '(r', _, es) := mirror_check (fun d m => (d, d, true)) ex_reg [false; false; false; false] 0x66 (Map RtRW) in
  map mirrored (fields r') = [2; 1; 0; 0] /\ es = [HCheck].
Proof. vm_compute. split; reflexivity. Qed.

(** After a reset the expected value is the reset value; write-only fields are expected to read it too. *)
Example C121_example :
  let r := reg_reset (Reg 8 8 true false [configure 4 0 RW false 5 true; configure 4 4 WO false 3 true]) 0 in
  let rd v := fun (d : unit) (m : via) => (d, v, true) in
  snd (mirror_check (rd 0x35) r [false; false] tt (Map RtRW)) = [] /\
  snd (mirror_check (rd 0x05) r [false; false] tt (Map RtRW)) = [HCheck] /\
  snd (mirror_check (rd 0x05) r [false; true] tt (Map RtRW)) = [].
Proof. repeat split; vm_compute; reflexivity. Qed.

(** Which blocks the reset test reaches, and how often. [below] is the way down, the last block is [x]. *)
Theorem C121_blocks : forall fuel b mid x, (height b <= fuel)%nat -> NoDup (ids b) -> down b (mid ++ [x]) x ->
  exists l, hw_block fuel b = Some l /\
    let t c := if off c then 0%nat else leading (bmaps c) in
    count_occ Nat.eq_dec l (bid b) = t b /\
    count_occ Nat.eq_dec l (bid x) = (t b * prod (map (fun c => S (t c)) mid) * t x)%nat.
Proof.
  intros fuel b mid x Hh HN HD. rewrite hw_block_V by auto. eexists. split; [reflexivity|]. cbn zeta. split.
  - apply (cnt_here leading_on b HN).
  - rewrite (cnt_V leading_on b _ x HN HD). rewrite removelast_last. destruct (mid ++ [x]) eqn:E; [destruct mid; discriminate|reflexivity].
Qed.
Print Assumptions C121_blocks.

(** A block whose first map has submaps: nothing below it is tested from it. *)
Theorem C121_submap_first_limit : forall fuel b ms, bmaps b = true :: ms -> (0 < fuel)%nat -> 
  (height b <= fuel)%nat -> hw_block fuel b = Some [].
Proof.
  intros fuel b ms Hm Hf Hh. rewrite hw_block_V by auto. rewrite V_eq. unfold leading_on. rewrite Hm. now destruct (off b).
Qed.
Print Assumptions C121_submap_first_limit.
Example C121_blocks_example :
  let u := Blk 2 false [false] [] in
  let s := Blk 1 false [false; false] [u] in
  hw_block 3 (Blk 0 false [false] [s]) = Some [0; 1; 2; 1; 2; 2]%nat /\
  hw_block 3 (Blk 0 false [true] [s]) = Some [] /\
  hw_block 3 (Blk 0 false [false; true; false] [s]) = Some [0; 1; 2; 1; 2; 2]%nat /\
  down (Blk 0 false [false] [s]) ([s] ++ [u]) u /\ NoDup (ids (Blk 0 false [false] [s])).
Proof.
  cbn zeta. do 3 (split; [reflexivity|]). split.
  - eapply down_step; [now left|]. eapply down_step; [now left|]. apply down_here.
  - cbn. repeat (constructor; [cbn; intuition discriminate|]). constructor.
Qed.

(** C122: the block loops of the bit bash, access and memory tests. *)
Theorem C122_blocks : forall fuel b mid x, (height b <= fuel)%nat -> NoDup (ids b) -> down b (mid ++ [x]) x ->
  exists l, do_block fuel b = Some l /\
    count_occ Nat.eq_dec l (bid b) = (if off b then 0 else 1)%nat /\
    count_occ Nat.eq_dec l (bid x) =
      (if off b || off x then 0 else 2 ^ length (filter (fun c => negb (off c)) mid))%nat.
Proof.
  intros fuel b mid x Hh HN HD. rewrite do_block_V by auto. eexists. split; [reflexivity|]. split.
  - apply (cnt_here once_on b HN).
  - rewrite (cnt_V once_on b _ x HN HD). rewrite removelast_last. destruct (mid ++ [x]) eqn:E; [destruct mid; discriminate|]. clear.
    assert (E : prod (map (fun c => S (once_on c)) mid) = (2 ^ length (filter (fun c => negb (off c)) mid))%nat).
    { induction mid as [|c mid IH]; auto. cbn [map prod filter]. rewrite IH. unfold once_on. destruct (off c); cbn; lia. }
    rewrite E. unfold once_on. destruct (off b), (off x); cbn [orb]; lia.
Qed.
Print Assumptions C122_blocks.

(** Only blocks of the tree are visited. *)
Theorem C122_inside : forall fuel b, (height b <= fuel)%nat ->
  (exists l, do_block fuel b = Some l /\ forall y, In y l -> In y (ids b)) /\
  (exists l, hw_block fuel b = Some l /\ forall y, In y l -> In y (ids b)).
Proof.
  intros fuel b Hh. split.
  - exists (V once_on b). split; [now apply do_block_V|]. intros y Hy. apply (H_ids once_on). rewrite H_eq. apply in_or_app. now left.
  - exists (V leading_on b). split; [now apply hw_block_V|]. intros y Hy. apply (H_ids leading_on). rewrite H_eq. apply in_or_app. now left.
Qed.
Print Assumptions C122_inside.

(** Excluding a block does not exclude the blocks in it; and blocks are tested again for every block
    they are in. *)
Example C122_example :
  let u := Blk 2 false [] [] in
  do_block 3 (Blk 0 false [] [Blk 1 true [] [u]]) = Some [0; 2]%nat /\
  do_block 3 (Blk 0 false [] [Blk 1 false [] [u]]) = Some [0; 1; 2; 2]%nat /\
  down (Blk 0 false [] [Blk 1 true [] [u]]) ([Blk 1 true [] [u]] ++ [u]) u.
Proof.
  cbn zeta. do 2 (split; [reflexivity|]). eapply down_step; [now left|]. eapply down_step; [now left|]. apply down_here.
Qed.
