(** C109-C112: memories. *)
From Coq Require Import ZArith List Bool Arith Lia Permutation.
From Verif Require Import RegMapModel RegMapSpec RegMapProofs RegMapProps MemModel MemSpec MemProofs.
Import ListNotations.
Open Scope Z_scope.

(** ** C109: what an access does *)
(** The access goes to the bus of a mapped memory. *)
Definition by_bus (c : mcfg) (p : mpath) : Prop :=
  m_local c = true /\ m_unmapped c = false /\
  match p with MFront => True | MBack => m_hdl c = false | MDefault => m_dflt_back c = false \/ m_hdl c = false end.
Definition fits (c : mcfg) (offset : Z) (n : nat) : Prop :=
  offset < m_size c /\ ((n <= 1)%nat \/ m_bits c <= m_lbytes c * 8 /\ offset + Z.of_nat n <= m_size c).

Lemma check_bus c p offset n : by_bus c p -> offset < m_size c ->
  exists errs, check_access c p offset n = Some (errs, MFront, true) /\ (errs = [] <-> fits c offset n) /\
    (m_size c < offset + Z.of_nat n -> (1 < n)%nat -> m_bits c <= m_lbytes c * 8 -> errs = [EBurstEnd]).
Proof.
  intros (HL & HU & HP) HO. unfold check_access, fits. rewrite (proj2 (Z.leb_gt _ _) HO).
  set (q := match match p with MDefault => _ | _ => _ end with MBack => _ | _ => _ end).
  assert (Q : q = MFront).
  { subst q. destruct p; [reflexivity|now rewrite HP|]. destruct HP as [-> | ->]; [reflexivity|]. now destruct (m_dflt_back c). }
  rewrite Q, HL, HU. cbn [negb]. destruct (Nat.ltb_spec 1 n) as [L|L].
  - destruct (Z.ltb_spec (m_lbytes c * 8) (m_bits c)).
    + eexists. split; [reflexivity|]. split; [|intros; lia]. split; [discriminate|]. intros [_ [X|[X _]]]; lia.
    + destruct (Z.ltb_spec (m_size c) (offset + Z.of_nat n)).
      * eexists. split; [reflexivity|]. split; [|reflexivity]. split; [discriminate|]. intros [_ [X|[_ X]]]; lia.
      * eexists. split; [reflexivity|]. split; [|intros; lia]. split; [|reflexivity]. intros _. split; [exact HO|]. right. lia.
  - eexists. split; [reflexivity|]. split; [|intros; lia]. split; [|reflexivity]. intros _. split; [exact HO|]. left. lia.
Qed.
Lemma write_log ok order bw stride values : reorders order -> forall addrs d st j l,
  nth_error (snd (bus_write ok order bw stride d st addrs values)) j = Some l ->
  forall o, In o l -> In (fst o) (at_elem addrs stride j).
Proof.
  intros Ho. induction values as [|v vs IH]; intros addrs d st j l; cbn [bus_write]; [destruct j; discriminate|].
  destruct (write_loop ok d st (order (write_ops v bw 0 addrs))) as [[d1 st1] log1] eqn:EW.
  specialize (IH (map (fun a => a + stride) addrs) d1 st1).
  destruct (bus_write ok order bw stride d1 st1 (map (fun a => a + stride) addrs) vs) as [[d2 st2] log2]. cbn [snd] in *.
  destruct j as [|j]; cbn [nth_error]; intros E o I.
  - injection E as <-. rewrite at_elem_0. rewrite <- (write_ops_fst v bw 0 addrs). apply in_map.
    apply (Permutation_in _ (Ho _)). pose proof (write_loop_fail ok d st (order (write_ops v bw 0 addrs))) as WF.
    cbv zeta in WF. rewrite EW in WF. cbn [fst snd] in WF. destruct WF as [(rest & HE & _)|HE].
    + rewrite HE. apply in_or_app. now left.
    + rewrite HE in EW. cbn in EW. injection EW as _ _ <-. destruct I.
  - rewrite <- at_elem_shift. now apply (IH j l).
Qed.
Lemma mem_at_elem A stride offset j : at_elem (mem_addrs A stride offset) stride j = mem_addrs A stride (offset + Z.of_nat j).
Proof. unfold at_elem, mem_addrs. rewrite map_map. apply map_ext. intros; lia. Qed.
Lemma bus_write_len ok order bw stride values : forall addrs d st,
  length (snd (bus_write ok order bw stride d st addrs values)) = length values.
Proof.
  induction values as [|v vs IH]; intros addrs d st; cbn [bus_write]; [reflexivity|].
  destruct (write_loop ok d st _) as [[d1 st1] log1]. specialize (IH (map (fun a => a + stride) addrs) d1 st1).
  destruct (bus_write ok order bw stride d1 st1 _ vs) as [[d2 st2] log2]. cbn [snd length] in *. now rewrite IH.
Qed.

(** A write over the bus performs the bus accesses of the elements from the offset on,
    errors or not; an error is reported exactly if the elements do not fit. *)
Theorem C109_front ok order c y p offset vs : reorders order -> by_bus c p -> offset < m_size c ->
  exists d st log errs,
    do_write ok order c y p offset vs = MDone (Dut d (d_hdl y), log) st errs /\
    bus_write ok order (m_lbytes c) (m_stride c) (d_bus y) NOT_OK (mem_addrs (m_addrs c) (m_stride c) offset) vs = (d, st, log) /\
    (errs = [] <-> fits c offset (length vs)) /\
    (forall j l o, nth_error log j = Some l -> In o l -> In (fst o) (mem_addrs (m_addrs c) (m_stride c) (offset + Z.of_nat j))).
Proof.
  intros Ho HB HO. destruct (check_bus c p offset (length vs) HB HO) as (errs & EC & HE & _).
  unfold do_write. rewrite EC. destruct HB as (_ & -> & _).
  destruct (bus_write ok order _ _ _ _ _ vs) as [[d st] log] eqn:EB.
  exists d, st, log, errs. split; [reflexivity|]. split; [reflexivity|]. split; [exact HE|].
  intros j l o Hj I. rewrite <- mem_at_elem. eapply write_log; [exact Ho| |exact I].
  rewrite EB. exact Hj.
Qed.
(** No error and an offset of at least 0: only elements of the memory are accessed. *)
Theorem C109_in_range ok order c y p offset vs a log st : reorders order -> by_bus c p -> 0 <= offset -> vs <> [] ->
  do_write ok order c y p offset vs = MDone (a, log) st [] ->
  forall l o, In l log -> In o l -> exists e, 0 <= e < m_size c /\ In (fst o) (mem_addrs (m_addrs c) (m_stride c) e).
Proof.
  intros Ho HB H0 NE E l o Il Io. destruct (Z_lt_le_dec offset (m_size c)) as [L|L].
  - destruct (C109_front ok order c y p offset vs Ho HB L) as (d & st' & log' & errs & E1 & EB & HE & HL).
    rewrite E in E1. injection E1 as _ -> _ <-. destruct (proj1 HE eq_refl) as [_ F].
    destruct (In_nth_error _ _ Il) as [j Hj]. exists (offset + Z.of_nat j). split; [|eapply HL; eassumption].
    assert (LJ : (j < length vs)%nat).
    { rewrite <- (bus_write_len ok order (m_lbytes c) (m_stride c) vs (mem_addrs (m_addrs c) (m_stride c) offset) (d_bus y) NOT_OK), EB.
      cbn [snd]. apply nth_error_Some. congruence. }
    destruct F as [F|[_ F]]; lia.
  - unfold do_write, check_access in E. rewrite (proj2 (Z.leb_le _ _) L) in E. destruct p; [discriminate| |];
      destruct (m_rw c), (m_hdl c); discriminate.
Qed.
(** Offset beyond the end: an error always; with an explicit front door an IndexError, else
    no bus access and the status OK; nothing changes unless there is an HDL path. *)
Theorem C109_beyond ok order c y p offset vs : m_size c <= offset ->
  match p with
  | MFront => do_write ok order c y p offset vs = MRaised [EOffset]
  | _ => exists y' errs, do_write ok order c y p offset vs = MDone (y', []) IS_OK (EOffset :: errs) /\
           d_bus y' = d_bus y /\ (m_hdl c = false -> y' = y) /\
           errs = if m_rw c && negb (m_hdl c) then [ENoHdl] else []
  end.
Proof.
  intros L. unfold do_write, check_access. rewrite (proj2 (Z.leb_le _ _) L). destruct p; [reflexivity| |];
    (destruct (m_rw c); [destruct (m_hdl c)|]); do 2 eexists; (split; [reflexivity|]); (split; [reflexivity|]); (split; [try discriminate; auto|reflexivity]).
Qed.
(** Reads beyond the end likewise; by the back door without an HDL path the values are 0. *)
Theorem C109_beyond_read ok order c y p offset n : m_size c <= offset ->
  match p with
  | MFront => do_read ok order c y p offset n = MRaised [EOffset]
  | _ => exists vs, do_read ok order c y p offset n = MDone (vs, []) IS_OK (EOffset :: if m_hdl c then [] else [ENoHdl]) /\
           length vs = n /\ (m_hdl c = false -> Forall (fun v => v = 0) vs)
  end.
Proof.
  intros L. unfold do_read, check_access. rewrite (proj2 (Z.leb_le _ _) L). destruct p; [reflexivity| |];
    (destruct (m_hdl c); eexists; (split; [reflexivity|])); (split; [|try discriminate]).
  all: try (unfold hdl_read; rewrite map_length, seq_length; reflexivity).
  all: try apply repeat_length.
  all: intros _; apply Forall_forall; intros v I; now apply repeat_spec in I.
Qed.
Print Assumptions C109_beyond_read.
(** A burst past the end: an error, and all accesses are performed. *)
Theorem C109_burst_past_end ok order c y p offset vs : by_bus c p -> offset < m_size c ->
  m_size c < offset + Z.of_nat (length vs) -> (1 < length vs)%nat -> m_bits c <= m_lbytes c * 8 ->
  exists d st log, do_write ok order c y p offset vs = MDone (Dut d (d_hdl y), log) st [EBurstEnd] /\
    bus_write ok order (m_lbytes c) (m_stride c) (d_bus y) NOT_OK (mem_addrs (m_addrs c) (m_stride c) offset) vs = (d, st, log).
Proof.
  intros HB HO HS HN HW. destruct (check_bus c p offset (length vs) HB HO) as (errs & EC & _ & HE).
  unfold do_write. rewrite EC, (HE HS HN HW). destruct HB as (_ & -> & _).
  destruct (bus_write ok order _ _ _ _ _ vs) as [[d st] log]. eauto.
Qed.
(** burst_read() never reads anything. *)
Theorem C109_burst_read ok order c y p offset : by_bus c p -> offset < m_size c ->
  burst_read ok order c y p offset = MDone ([], []) NOT_OK [].
Proof.
  intros HB HO. destruct (check_bus c p offset 0 HB HO) as (errs & EC & HE & _). unfold burst_read, do_read. rewrite EC.
  rewrite (proj2 HE) by (split; [exact HO|left; lia]). reflexivity.
Qed.
(** The back door reads what it wrote, as far as the memory is wide. *)
Theorem C109_poke_peek c y offset v k : m_hdl c = true -> 0 <= m_bits c ->
  exists y', poke c y offset v = (y', IS_OK, []) /\ d_bus y' = d_bus y /\
    peek c y' k = ([(if k =? offset then v else d_hdl y k) mod 2 ^ m_bits c], IS_OK, []).
Proof.
  intros HH HB. unfold poke, peek. rewrite HH. eexists. split; [reflexivity|]. split; [reflexivity|].
  cbn [hdl_write hdl_read d_hdl map seq]. unfold setz. rewrite Z.add_0_r. rewrite <- trunc_mod by exact HB. destruct (Z.eqb_spec k offset); [|reflexivity].
  now rewrite !trunc_trunc.
Qed.
(** The same for the values of a burst through the back door: element by element, nothing else
    changes, nothing is done on the bus. *)
Definition by_hdl (c : mcfg) (p : mpath) : Prop :=
  m_hdl c = true /\ match p with MFront => False | MBack => True | MDefault => m_dflt_back c = true end.
Lemma check_hdl c p offset n : by_hdl c p -> offset < m_size c -> check_access c p offset n = Some ([], MBack, false).
Proof.
  intros [HH HP] HO. unfold check_access. rewrite (proj2 (Z.leb_gt _ _) HO). destruct p; [destruct HP| |rewrite HP]; now rewrite HH.
Qed.
Lemma hdl_write_at n vs : forall h o k, hdl_write n h o vs k =
  if (o <=? k) && (k <? o + Z.of_nat (length vs)) then trunc n (nth (Z.to_nat (k - o)) vs 0) else h k.
Proof.
  induction vs as [|v vs IH]; intros h o k; cbn [hdl_write length].
  - destruct (Z.leb_spec o k), (Z.ltb_spec k (o + Z.of_nat 0)); try reflexivity. lia.
  - rewrite IH. unfold setz. destruct (Z.leb_spec (o + 1) k), (Z.leb_spec o k), (Z.ltb_spec k (o + 1 + Z.of_nat (length vs))),
      (Z.ltb_spec k (o + Z.of_nat (S (length vs)))), (Z.eqb_spec k o); cbn [andb]; try lia; try reflexivity.
    + replace (Z.to_nat (k - o)) with (S (Z.to_nat (k - (o + 1)))) by lia. reflexivity.
    + subst k. now rewrite Z.sub_diag.
Qed.
Theorem C109_back_door_burst ok order c y p offset vs : by_hdl c p -> m_rw c = true -> 0 <= m_bits c -> offset < m_size c ->
  exists y', do_write ok order c y p offset vs = MDone (y', []) IS_OK [] /\ d_bus y' = d_bus y /\
    forall k n, k < m_size c -> exists l, do_read ok order c y' p k n = MDone (l, []) IS_OK [] /\ length l = n /\
      forall i, (i < n)%nat -> nth_error l i = Some
        ((if (offset <=? k + Z.of_nat i) && (k + Z.of_nat i <? offset + Z.of_nat (length vs))
          then nth (Z.to_nat (k + Z.of_nat i - offset)) vs 0 else d_hdl y (k + Z.of_nat i)) mod 2 ^ m_bits c).
Proof.
  intros HP HR HB HO. unfold do_write. rewrite (check_hdl c p offset _ HP HO), HR. pose proof HP as [HH _]. rewrite HH.
  eexists. split; [reflexivity|]. split; [reflexivity|]. intros k n HK. unfold do_read. rewrite (check_hdl c p k n HP HK), HH. cbn [d_hdl].
  eexists. split; [reflexivity|]. unfold hdl_read. rewrite map_length, seq_length. split; [reflexivity|]. intros i Hi.
  rewrite nth_error_map, (nth_error_nth' _ 0%nat) by (now rewrite seq_length). rewrite seq_nth by exact Hi. cbn [option_map plus]. f_equal. rewrite <- trunc_mod by exact HB.
  rewrite hdl_write_at. destruct (_ && _); [now rewrite trunc_trunc|reflexivity].
Qed.
Theorem C109_no_back_door c y offset v : m_hdl c = false ->
  poke c y offset v = (y, NOT_OK, [ENoHdl]) /\ peek c y offset = ([], NOT_OK, [ENoHdl]).
Proof. intros H. unfold poke, peek. rewrite H. auto. Qed.
Print Assumptions C109_front.
Print Assumptions C109_in_range.
Print Assumptions C109_beyond.
Print Assumptions C109_burst_past_end.
Print Assumptions C109_burst_read.
Print Assumptions C109_poke_peek.
Print Assumptions C109_back_door_burst.
Print Assumptions C109_no_back_door.

Definition ex_mem := MCfg 4 32 true false false true true false 4 [4096] 4.
Definition ex_dut := Dut (fun _ => 0) (fun _ => 0).
Example C109_example :
  by_bus ex_mem MDefault /\
  exists d, do_write (fun _ => true) (fun l => l) ex_mem ex_dut MDefault 2 [5; 6] =
    MDone (Dut d (fun _ => 0), [[(4104, 5)]; [(4108, 6)]]) IS_OK [].
Proof. split; [unfold by_bus; cbn; auto|]. eexists. vm_compute. reflexivity. Qed.
(** The burst reaches address 4112, which is not the memory's; a negative offset does
    so without an error; past the end with the default path nothing is done with status OK. *)
Theorem C109_outside_limit :
  (exists d, do_write (fun _ => true) (fun l => l) ex_mem ex_dut MFront 3 [5; 6] =
    MDone (Dut d (fun _ => 0), [[(4108, 5)]; [(4112, 6)]]) IS_OK [EBurstEnd]) /\
  (exists d, do_write (fun _ => true) (fun l => l) ex_mem ex_dut MFront (-1) [5] =
    MDone (Dut d (fun _ => 0), [[(4092, 5)]]) IS_OK []) /\
  do_write (fun _ => true) (fun l => l) ex_mem ex_dut MDefault 4 [5] = MDone (ex_dut, []) IS_OK [EOffset; ENoHdl].
Proof. split; [|split]; [eexists; vm_compute; reflexivity|eexists; vm_compute; reflexivity|reflexivity]. Qed.
Print Assumptions C109_outside_limit.

(** ** C110: the walking test *)
(** On a memory of [n]-bit cells with wrong address decoding and stuck bits the test reports
    no error exactly if no two neighbouring addresses share a cell and every stuck bit
    happens to be the complement of the address bit. *)
Theorem C110_detects F n size wr rd d : behaves F n wr rd -> consistent F -> 0 < n -> 0 < size ->
  (snd (walk wr rd n size d) = [] <->
   (forall k, 0 <= k < size - 1 -> cell F k <> cell F (k + 1)) /\ stuck_like_complement F n size).
Proof.
  intros B C Hn Hs. unfold walk. rewrite (walk_errs F n size wr rd B (Z.to_nat size) 0 d ltac:(lia) ltac:(lia) ltac:(lia)).
  pose proof (walk_iff F n size wr rd B Hn C) as W.
  assert (X : (forall j, 0 <= j -> 0 - 1 <= j < size -> (0 < Z.to_nat size)%nat -> seen F size wr j = trunc n (Z.lnot j)) <->
              (forall j, 0 <= j -> 0 - 1 <= j < size -> seen F size wr j = trunc n (Z.lnot j))).
  { split; intros H j H1 H2; [apply H; lia|intros _; auto]. }
  rewrite X, W. unfold stuck_like_complement. split; intros [H1 H2]; (split; [exact H1|]).
  - intros k i Hk Hi. exact (proj1 (K_complement F n wr rd B Hn C k ltac:(lia)) (H2 k Hk) i Hi).
  - intros k Hk. apply (K_complement F n wr rd B Hn C k ltac:(lia)). intros i Hi. now apply H2.
Qed.
(** A correct memory: no error; it holds the address in every element but the last, which
    holds the complement. *)
Theorem C110_correct n size d : 0 < n -> 0 < size ->
  snd (walk (ideal_wr n) ideal_rd n size d) = [] /\
  forall k, fst (walk (ideal_wr n) ideal_rd n size d) k =
    if k =? size - 1 then Z.lnot k mod 2 ^ n else if (0 <=? k) && (k <? size) then k mod 2 ^ n else d k.
Proof.
  intros Hn Hs. split.
  - apply (C110_detects no_faults n size (ideal_wr n) ideal_rd d); auto; [apply ideal_behaves; lia|intros c i [[] _]|].
    split; [intros k _; cbn; lia|]. intros k i _ _. split; intros [].
  - intros k. rewrite <- !trunc_mod by lia. unfold walk. rewrite (ideal_final n size (Z.to_nat size) 0 d) by lia.
    destruct (Z.eqb_spec k (size - 1)), (Z.leb_spec (0 - 1) k), (Z.leb_spec 0 k); cbn [andb]; try reflexivity; lia.
Qed.

(** The memory as the sequence accesses it: write() and read() by the front door of a map. *)
Definition api_wr ok order c (y : dut) (k v : Z) : dut * status :=
  match write ok order c y MFront k v with MDone (y', _) st _ => (y', st) | MRaised _ => (y, NOT_OK) end.
Definition api_rd ok order c (y : dut) (k : Z) : Z * status :=
  match read ok order c y MFront k with MDone (vs, _) st _ => (hd 0 vs, st) | MRaised _ => (0, NOT_OK) end.

Section C110map.
Context (ok : Z -> bool) (worder rorder : list busop -> list busop) (l : level) (up : list level) (offset n msize stride : Z) (A : list Z) (c : mcfg).
Context (Hu : Forall usable (l :: up)) (Hun : uniform l up) (Hn : 0 < n) (Hm : 2 <= msize) (Hs : splits_at_top l up n).
Context (Hwo : reorders worder) (Hro : reorders rorder) (Hok : forall a, ok a = true).
Context (HR : mem_range (l :: up) offset n msize = Some (A, stride)) (HA : m_addrs c = A) (HT : m_stride c = stride)
  (HW : m_lbytes c = system_width (l :: up) offset n) (HZ : m_size c = msize)
  (HB : m_bits c = 8 * m_lbytes c * Z.of_nat (length A)) (HL : m_local c = true) (HU : m_unmapped c = false).

Lemma elem_facts : 0 < m_lbytes c /\ NoDup A /\ A <> [] /\
  forall i j a, i <> j -> In a (mem_addrs A stride i) -> In a (mem_addrs A stride j) -> False.
Proof.
  destruct (C80_element_addresses l up offset n msize Hu Hn Hm) as (A' & S' & E & HE). rewrite HR in E. injection E as <- <-.
  assert (A0 : A = get_physical_addresses (l :: up) offset 0 n).
  { rewrite <- HE. unfold mem_addrs. rewrite <- (map_id A) at 1. apply map_ext. intros; lia. }
  destruct (C31_distinct l up offset n Hu Hun Hn Hs) as (ND & NW & _). rewrite <- A0 in ND.
  assert (Wl : 0 < lw l) by (inversion Hu as [|? ? [] ?]; auto).
  split; [rewrite HW; destruct NW as [(l0 & Hl0 & <-) _]; rewrite Forall_forall in Hu; apply Hu, Hl0|].
  split; [exact ND|]. split; [rewrite A0; now apply gpa_nonempty|].
  assert (MO : forall k, get_physical_addresses (l :: up) offset k n =
    get_physical_addresses (l :: up) (offset + k * (words n (lw l) * mult l)) 0 n).
  { intros k. unfold get_physical_addresses. now rewrite phys_moff by auto. }
  intros i j a Hij Hi Hj. rewrite HE, MO in Hi, Hj.
  eapply (disjoint_addresses l up _ n _ n a Hu Hun Hn Hn); [|exact Hi|exact Hj].
  intros x. pose proof (words_needs n (lw l) Wl) as Q.
  rewrite (elem_occupies l offset n _ _ Wl Hn Q), (elem_occupies l offset n _ _ Wl Hn Q).
  pose proof (mult_pos l Wl). pose proof (words_pos n (lw l) Wl Hn). nia.
Qed.
Lemma api_wr_bus y k v : k < msize -> api_wr ok worder c y k v =
  let '(d, st, _) := bus_write ok worder (m_lbytes c) stride (d_bus y) NOT_OK (mem_addrs A stride k) [v] in (Dut d (d_hdl y), st).
Proof.
  intros Hk. unfold api_wr, write, do_write. assert (BB : by_bus c MFront) by (split; [|split]; auto; exact I).
  destruct (check_bus c MFront k (length [v]) BB ltac:(lia)) as (errs & -> & _). rewrite HU, HA, HT.
  destruct (bus_write ok worder _ _ _ _ _ [v]) as [[d st] log]. reflexivity.
Qed.
Lemma api_rd_bus y k : k < msize -> api_rd ok rorder c y k =
  let '(v, st, _) := read_loop ok (d_bus y) (m_lbytes c) NOT_OK 0 (rorder (read_ops (m_lbytes c) 0 (mem_addrs A stride k))) in (v, st).
Proof.
  intros Hk. unfold api_rd, read, do_read. assert (BB : by_bus c MFront) by (split; [|split]; auto; exact I).
  destruct (check_bus c MFront k 1 BB ltac:(lia)) as (errs & -> & _). rewrite HU, HA, HT. cbn [bus_read].
  destruct (read_loop _ _ _ _ _ _) as [[v st] log]. reflexivity.
Qed.
Lemma mem_addrs_len k : length (mem_addrs A stride k) = length A.
Proof. unfold mem_addrs. now rewrite map_length. Qed.
Lemma mem_addrs_ne k : A <> [] -> mem_addrs A stride k <> [].
Proof. unfold mem_addrs. destruct A; [congruence|discriminate]. Qed.

(** Each element is read as the store [h] has it. *)
Definition like (y : dut) (h : Z -> Z) : Prop := forall k, 0 <= k < msize -> api_rd ok rorder c y k = (h k, IS_OK).
Lemma like_wr y h k v : like y h -> 0 <= k < msize ->
  snd (api_wr ok worder c y k v) = IS_OK /\ like (fst (api_wr ok worder c y k v)) (setz h k (trunc (m_bits c) v)).
Proof.
  intros H Hk. destruct elem_facts as (Wb & ND & NE & DJ). rewrite api_wr_bus by lia. cbn [bus_write].
  assert (NDk : NoDup (mem_addrs A stride k)) by (apply FinFun.Injective_map_NoDup; [intros a b; lia|exact ND]).
  destruct (write_holds ok worder (d_bus y) NOT_OK (m_lbytes c) v (mem_addrs A stride k) Hwo NDk (fun a _ => Hok a)) as (W1 & W2 & W3 & _).
  cbv zeta in *. destruct (write_loop ok (d_bus y) NOT_OK _) as [[d1 st1] log1]. cbn [fst snd] in *.
  split; [apply W3; now apply mem_addrs_ne|]. intros j Hj. rewrite api_rd_bus by lia. cbn [d_bus].
  unfold setz. destruct (Z.eqb_spec j k) as [->|N].
  - pose proof (holds_trunc d1 (m_lbytes c) v _ Wb W1) as HH. rewrite mem_addrs_len, <- HB in HH.
    pose proof (read_held ok rorder d1 NOT_OK (m_lbytes c) _ (mem_addrs A stride k) Hro Wb (fun a _ => Hok a) HH) as R.
    rewrite mem_addrs_len, <- HB in R. assert (P0 : 0 <= m_bits c) by (rewrite HB; nia). specialize (R (trunc_range _ v P0)).
    assert (ST : snd (fst (read_loop ok d1 (m_lbytes c) NOT_OK 0 (rorder (read_ops (m_lbytes c) 0 (mem_addrs A stride k))))) = IS_OK).
    { apply read_loop_status; [intros; apply Hok|]. intros E. pose proof (Hro (read_ops (m_lbytes c) 0 (mem_addrs A stride k))) as P.
      rewrite E in P. apply Permutation_nil in P. pose proof (mem_addrs_ne k NE). destruct (mem_addrs A stride k); [congruence|discriminate]. }
    destruct (read_loop _ _ _ _ _ _) as [[v' st'] log']. cbn [fst snd] in *. now subst.
  - rewrite <- (H j Hj), api_rd_bus by lia. rewrite (read_loop_ext ok d1 (d_bus y)); [reflexivity|].
    intros a cb I. apply W2. intros I2. apply (Permutation_in _ (Hro _)) in I. apply read_ops_in in I as (i & Hi & _).
    apply nth_error_In in Hi. exact (DJ j k a N Hi I2).
Qed.
Lemma like_any y : exists h, like y h.
Proof.
  exists (fun k => fst (api_rd ok rorder c y k)). intros k Hk. rewrite api_rd_bus by lia.
  destruct elem_facts as (Wb & ND & NE & _).
  assert (ST : snd (fst (read_loop ok (d_bus y) (m_lbytes c) NOT_OK 0 (rorder (read_ops (m_lbytes c) 0 (mem_addrs A stride k))))) = IS_OK).
  { apply read_loop_status; [intros; apply Hok|]. intros E. pose proof (Hro (read_ops (m_lbytes c) 0 (mem_addrs A stride k))) as P.
    rewrite E in P. apply Permutation_nil in P. pose proof (mem_addrs_ne k NE). destruct (mem_addrs A stride k); [congruence|discriminate]. }
  destruct (read_loop _ _ _ _ _ _) as [[v' st'] log']. cbn [fst snd] in *. now subst.
Qed.
(** Through any map hierarchy a bus target that stores what is written passes. *)
Theorem C110_through_map y :
  snd (walk (api_wr ok worder c) (api_rd ok rorder c) (m_bits c) msize y) = [] /\
  forall k, 0 <= k < msize -> api_rd ok rorder c (fst (walk (api_wr ok worder c) (api_rd ok rorder c) (m_bits c) msize y)) k =
    ((if k =? msize - 1 then Z.lnot k else k) mod 2 ^ m_bits c, IS_OK).
Proof.
  destruct elem_facts as (Wb & ND & NE & _). destruct (like_any y) as [h Hh].
  assert (PB : 0 < m_bits c).
  { rewrite HB. assert (0 < Z.of_nat (length A)) by (destruct A; [congruence|cbn; lia]). nia. }
  destruct (walk_sim (api_wr ok worder c) (api_rd ok rorder c) (ideal_wr (m_bits c)) ideal_rd (m_bits c) msize like) with
    (m := Z.to_nat msize) (k := 0) (d := y) (x := h) as [E1 E2]; try lia; auto.
  - intros d x k v H Hk. cbn [ideal_wr fst snd]. now apply like_wr.
  - intros d x k H Hk. now apply H.
  - destruct (C110_correct (m_bits c) msize h PB ltac:(lia)) as [C1 C2]. fold (walk (api_wr ok worder c) (api_rd ok rorder c) (m_bits c) msize y) in *.
    fold (walk (ideal_wr (m_bits c)) ideal_rd (m_bits c) msize h) in *. split; [congruence|]. intros k Hk.
    rewrite (E2 k Hk), C2. replace ((0 <=? k) && (k <? msize)) with true by (symmetry; apply andb_true_iff; split; [apply Z.leb_le|apply Z.ltb_lt]; lia).
    now destruct (k =? msize - 1).
Qed.
End C110map.
Print Assumptions C110_detects.
Print Assumptions C110_correct.
Print Assumptions C110_through_map.

(** Two deep, four bytes in bytes; a decoder that ignores address bit 1, and a cell 5 with bit 0
    stuck at zero: not detected. A decoder that ignores bit 0, and a cell 4 with bit 0 stuck at zero: detected. *)
Definition f_wr (cl : Z -> Z) (and_mask : Z -> Z) (n : Z) (d : Z -> Z) (k v : Z) : (Z -> Z) * status :=
  (setz d (cl k) (Z.land (trunc n v) (and_mask (cl k))), IS_OK).
Definition f_rd (cl : Z -> Z) (d : Z -> Z) (k : Z) : Z * status := (d (cl k), IS_OK).
Definition stuck_low (c0 : Z) (c : Z) : Z := if c =? c0 then -2 else -1.
Example C110_example :
  snd (walk (f_wr (fun k => Z.ldiff k 2) (fun _ => -1) 8) (f_rd (fun k => Z.ldiff k 2)) 8 8 (fun _ => 0)) = [] /\
  snd (walk (f_wr (fun k => k) (stuck_low 5) 8) (f_rd (fun k => k)) 8 8 (fun _ => 0)) = [] /\
  snd (walk (f_wr (fun k => Z.ldiff k 1) (fun _ => -1) 8) (f_rd (fun k => Z.ldiff k 1)) 8 2 (fun _ => 0)) =
    [WMismatch 0 254 255; WMismatch 1 0 254] /\
  snd (walk (f_wr (fun k => k) (stuck_low 4) 8) (f_rd (fun k => k)) 8 8 (fun _ => 0)) = [WMismatch 4 250 251].
Proof. vm_compute. auto. Qed.
Lemma f_behaves cl c0 n : 0 <= n ->
  behaves (Faults cl (fun c i => c = c0 /\ i = 0) (fun _ _ => False)) n (f_wr cl (stuck_low c0) n) (f_rd cl).
Proof.
  intros Hn. split; [|reflexivity]. intros d k v. eexists. split; [|reflexivity]. cbn [cell stuck0 stuck1]. split.
  - apply Z.land_nonneg. left. now apply trunc_range.
  - intros i Hi. rewrite Z.land_spec, trunc_bit by lia. rewrite !andb_true_iff, Z.ltb_lt. unfold stuck_low.
    destruct (Z.eqb_spec (cl k) c0) as [E|E].
    + change (-2) with (Z.lnot 1). rewrite Z.lnot_spec by lia. destruct (Z.eq_dec i 0) as [->|N].
      * cbn. intuition congruence.
      * assert (T : Z.testbit 1 i = false) by (change 1 with (2 ^ 0); apply Z.pow2_bits_false; lia). rewrite T. cbn [negb].
        split; [intros [[H1 H2] _]; split; [exact H1|]; right; split; [exact H2|]; intros [_ X]; lia|].
        intros [H1 [[]|[H2 _]]]. auto.
    + rewrite Z.bits_m1 by lia. split; [intros [[H1 H2] _]; split; [exact H1|]; right; split; [exact H2|]; intros [X _]; contradiction|].
      intros [H1 [[]|[H2 _]]]. auto.
Qed.
Example C110_map_example :
  let c := MCfg 16 64 true false false true true false 4 [4352; 4356] 16 in
  mem_range [ex_in; ex_top] 0 8 16 = Some ([4352; 4356], 16) /\ m_bits c = 8 * m_lbytes c * 2 /\
  m_lbytes c = system_width [ex_in; ex_top] 0 8 /\
  snd (walk (api_wr (fun _ => true) (fun l => l) c) (api_rd (fun _ => true) (@rev busop) c) 64 16 ex_dut) = [].
Proof. vm_compute. auto. Qed.

(** Reads of an element that fail are reported. *)
Theorem C110_read_failure D (wr : D -> Z -> Z -> D * status) rd n size d k : 0 <= k < size ->
  (forall d k v, snd (wr d k v) = IS_OK) -> (forall d, snd (rd d k) = NOT_OK) -> In (WReadStatus k) (snd (walk wr rd n size d)).
Proof.
  intros Hk HW HR. unfold walk.
  assert (CE : forall d, check_elem rd n d k = [WReadStatus k]).
  { intros d'. unfold check_elem. specialize (HR d'). destruct (rd d' k) as [v s]. cbn [snd] in HR. now subst s. }
  assert (G : forall m j d, 0 <= j -> (j <= k \/ j = k + 1 /\ j < size) -> j + Z.of_nat m = size -> In (WReadStatus k) (snd (walk_from wr rd n size m j d))).
  2: { apply G; lia. }
  induction m as [|m IH]; intros j d' J0 HJ HM; [lia|]. cbn [walk_from]. unfold walk_step. pose proof (HW d' j (Z.lnot j)) as W1.
  destruct (wr d' j (Z.lnot j)) as [d1 s1]. cbn [snd] in W1. subst s1. cbn [is_ok].
  match goal with |- context [if 0 <? j then ?a else ?b] => set (X := if 0 <? j then a else b) end.
  assert (exists d2 e2, X = (d2, e2) /\ (j = k + 1 -> In (WReadStatus k) e2)) as (d2 & e2 & -> & H2).
  { unfold X. destruct (Z.ltb_spec 0 j) as [L|L].
    - destruct (wr d1 (j - 1) (j - 1)) as [d2 s2]. do 2 eexists. split; [reflexivity|]. intros ->. replace (k + 1 - 1) with k by lia. rewrite CE. now left.
    - do 2 eexists. split; [reflexivity|]. intros ->. lia. }
  destruct (walk_from wr rd n size m (j + 1) d2) as [d3 e3] eqn:E3. cbn [snd]. rewrite !in_app_iff.
  destruct HJ as [HJ|[HJ _]]; [|left; left; now apply H2]. destruct (Z.eq_dec j k) as [->|NE].
  - destruct (Z.eqb_spec k (size - 1)) as [Q|Q]; [left; right; rewrite CE; now left|]. right. change e3 with (snd (d3, e3)). rewrite <- E3. apply IH; lia.
  - right. change e3 with (snd (d3, e3)). rewrite <- E3. apply IH; lia.
Qed.
Print Assumptions C110_read_failure.
Example C110_failure_example :
  snd (walk (fun (d : Z -> Z) k v => (setz d k (trunc 4 v), IS_OK)) (fun d k => (d k, if k =? 1 then NOT_OK else IS_OK)) 4 3 (fun _ => 0)) = [WReadStatus 1].
Proof. reflexivity. Qed.

(** A failure of the write that restores an element is reported. *)
Theorem C110_restore_failure D (wr : D -> Z -> Z -> D * status) rd n size d k : 0 <= k < size - 1 ->
  (forall d j, snd (wr d j (Z.lnot j)) = IS_OK) -> (forall d, snd (wr d k k) = NOT_OK) -> In (WWriteStatus k) (snd (walk wr rd n size d)).
Proof.
  intros Hk HW HR. unfold walk.
  assert (G : forall m j d, 0 <= j <= k + 1 -> j + Z.of_nat m = size -> In (WWriteStatus k) (snd (walk_from wr rd n size m j d))).
  2: { apply G; lia. }
  induction m as [|m IH]; intros j d' HJ HM; [lia|]. cbn [walk_from]. unfold walk_step. pose proof (HW d' j) as W1.
  destruct (wr d' j (Z.lnot j)) as [d1 s1]. cbn [snd] in W1. subst s1. cbn [is_ok].
  match goal with |- context [if 0 <? j then ?a else ?b] => set (X := if 0 <? j then a else b) end.
  assert (exists d2 e2, X = (d2, e2) /\ (j = k + 1 -> In (WWriteStatus k) e2)) as (d2 & e2 & -> & H2).
  { unfold X. destruct (Z.ltb_spec 0 j) as [L|L].
    - specialize (HR d1). destruct (wr d1 (j - 1) (j - 1)) as [d2 s2] eqn:EW. do 2 eexists. split; [reflexivity|]. intros ->.
      replace (k + 1 - 1) with k in * by lia. rewrite EW in HR. cbn [snd] in HR. subst s2. apply in_app_iff. right. now left.
    - do 2 eexists. split; [reflexivity|]. intros ->. lia. }
  destruct (walk_from wr rd n size m (j + 1) d2) as [d3 e3] eqn:E3. cbn [snd]. rewrite !in_app_iff.
  destruct (Z.eq_dec j (k + 1)) as [E|NE]; [left; left; now apply H2|]. right. change e3 with (snd (d3, e3)). rewrite <- E3. apply IH; lia.
Qed.
Print Assumptions C110_restore_failure.
Example C110_restore_example :
  snd (walk (fun (d : Z -> Z) k v => if v =? 1 then (d, NOT_OK) else (setz d k (trunc 4 v), IS_OK)) (fun d k => (d k, IS_OK)) 4 3 (fun _ => 0)) = [WWriteStatus 1].
Proof. reflexivity. Qed.

(** When the memory refuses a write, reporting it raises AttributeError and the test ends. *)
Theorem C110_refused_limit D (wr : D -> Z -> Z -> D * status) rd n size d : 0 < size ->
  snd (wr d 0 (Z.lnot 0)) = NOT_OK -> snd (walk wr rd n size d) = [WStatusRaise 0].
Proof.
  intros Hs H. unfold walk. destruct (Z.to_nat size) as [|m] eqn:E; [lia|]. cbn [walk_from]. unfold walk_step.
  destruct (wr d 0 (Z.lnot 0)) as [d1 s1]. cbn [snd] in H. subst s1. reflexivity.
Qed.
Print Assumptions C110_refused_limit.

(** ** C111: the access test of a memory *)
(** With a back door to the same cells the test reports no error exactly if no cell has a stuck
    bit and every number drawn fits the memory: wrong decoding of both doors is not seen. *)
Theorem C111_stuck F n wr rd pk po draws d : behaves F n wr rd -> back_door F n (cell F) pk po -> consistent F -> 0 < n ->
  (snd (access_seq wr rd pk po n ModeRW draws d) = [] <->
   forall j v, nth_error draws j = Some v ->
     0 <= v < 2 ^ n /\ forall i, 0 <= i < n -> ~ stuck0 F (cell F (Z.of_nat j)) i /\ ~ stuck1 F (cell F (Z.of_nat j)) i).
Proof.
  intros [BW BR] [HP HO] C Hn. unfold access_seq.
  rewrite (access_errs wr rd pk po n ModeRW (fun k v => 0 <= v < 2 ^ n /\
     forall i, 0 <= i < n -> ~ stuck0 F (cell F k) i /\ ~ stuck1 F (cell F k) i)); [split; intros H j v E; now apply H|].
  intros d0 k v. unfold access_step. destruct (BW d0 k v) as (s & K1 & ->). cbn [is_ok]. rewrite HP.
  rewrite trunc_trunc by lia. set (d1 := setz d0 (cell F k) s).
  destruct (HO d1 k (trunc n (Z.lnot v))) as (s' & K2 & ->). rewrite BR. cbn [is_ok].
  assert (E1 : d1 (cell F k) = s) by (unfold d1, setz; now rewrite Z.eqb_refl). rewrite E1.
  assert (E2 : setz d1 (cell F k) s' (cell F k) = s') by (unfold setz; now rewrite Z.eqb_refl). rewrite E2.
  rewrite (kept_range F n _ _ _ ltac:(lia) K1). do 2 eexists. split; [reflexivity|].
  rewrite app_nil_iff, <- (kept_both F n (cell F k) v s s' ltac:(lia) C K1 K2).
  destruct (Z.eqb_spec s v), (Z.eqb_spec s' (trunc n (Z.lnot v))); split; intros [X Y]; try discriminate; try contradiction; auto.
Qed.
(** Without stuck bits it reports no error exactly if the doors reach the same cells and the
    numbers fit. *)
Theorem C111_decoding F b n wr rd pk po draws d : behaves F n wr rd -> back_door F n b pk po -> 0 < n ->
  (forall c i, ~ stuck0 F c i /\ ~ stuck1 F c i) ->
  (snd (access_seq wr rd pk po n ModeRW draws d) = [] <->
   forall j v, nth_error draws j = Some v -> 0 <= v < 2 ^ n /\ cell F (Z.of_nat j) = b (Z.of_nat j)) .
Proof.
  intros [BW BR] [HP HO] Hn NS. unfold access_seq.
  (* d (b k) may hold the number by chance, but the front door then reads the number itself *)
  rewrite (access_errs wr rd pk po n ModeRW (fun k v => 0 <= v < 2 ^ n /\ cell F k = b k)); [split; intros H j v E; now apply H|].
  assert (KT : forall c v s, kept F n c v s -> s = trunc n v).
  { intros c v s [S B]. apply bits_trunc; [lia|exact S|]. intros i Hi. rewrite (B i Hi). destruct (NS c i) as [N0 N1]. tauto. }
  intros d0 k v. unfold access_step. destruct (BW d0 k v) as (s & K1 & ->). cbn [is_ok]. rewrite HP.
  rewrite trunc_trunc by lia. set (d1 := setz d0 (cell F k) s).
  destruct (HO d1 k (trunc n (Z.lnot v))) as (s' & K2 & ->). rewrite BR. cbn [is_ok].
  apply KT in K1, K2. rewrite trunc_trunc in K2 by lia. subst s s'. do 2 eexists. split; [reflexivity|].
  rewrite app_nil_iff. unfold setz at 1. unfold d1. unfold setz. rewrite Z.eqb_refl.
  rewrite (Z.eqb_sym (b k) (cell F k)). destruct (Z.eqb_spec (cell F k) (b k)) as [E|E].
  - rewrite trunc_trunc, Z.eqb_refl by lia. destruct (Z.eqb_spec (trunc n v) v) as [T|T].
    + apply trunc_id in T; [|lia]. tauto.
    + split; [intros [X _]; discriminate|]. intros [X _]. apply trunc_id in X; [|lia]. contradiction.
  - destruct (Z.eqb_spec (trunc n v) (trunc n (Z.lnot v))) as [T|T]; [symmetry in T; now apply lnot_differs in T|].
    split; [intros [_ X]; discriminate|]. tauto.
Qed.
(** The numbers drawn fit a memory of up to 32 bits or of 63 or more, and a memory in between
    only by chance. *)
Theorem C111_draw n r1 r2 : 0 < n -> 0 <= r1 < 2 ^ 31 -> 0 <= r2 < 2 ^ 31 ->
  (0 <= draw n r1 r2 < 2 ^ n <-> n <= 32 \/ r1 < 2 ^ (n - 32)).
Proof.
  intros Hn H1 H2. unfold draw. fold (trunc n r1). pose proof (trunc_range n r1 ltac:(lia)) as T.
  destruct (Z.ltb_spec 32 n) as [L|L]; [|tauto].
  assert (E : Z.lor (Z.shiftl (trunc n r1) 32) r2 = trunc n r1 * 2 ^ 32 + r2).
  { rewrite Z.shiftl_mul_pow2 by lia. rewrite <- Z.lxor_lor, <- Z.add_nocarry_lxor; [reflexivity| |].
    - apply Z.bits_inj'. intros i Hi. rewrite Z.land_spec, Z.testbit_0_l. destruct (Z_lt_le_dec i 32).
      + now rewrite Z.mul_pow2_bits_low by lia.
      + rewrite (Z.bits_above_log2 r2 i); [apply andb_false_r|lia|]. destruct (Z.eq_dec r2 0) as [->|]; [cbn; lia|].
        apply Z.log2_lt_pow2; [lia|]. eapply Z.lt_le_trans; [apply H2|]. apply Z.pow_le_mono_r; lia.
    - apply Z.bits_inj'. intros i Hi. rewrite Z.land_spec, Z.testbit_0_l. destruct (Z_lt_le_dec i 32).
      + now rewrite Z.mul_pow2_bits_low by lia.
      + rewrite (Z.bits_above_log2 r2 i); [apply andb_false_r|lia|]. destruct (Z.eq_dec r2 0) as [->|]; [cbn; lia|].
        apply Z.log2_lt_pow2; [lia|]. eapply Z.lt_le_trans; [apply H2|]. apply Z.pow_le_mono_r; lia. }
  rewrite E. assert (TR : trunc n r1 = r1).
  { apply trunc_id; [lia|]. split; [lia|]. eapply Z.lt_le_trans; [apply H1|]. apply Z.pow_le_mono_r; lia. }
  rewrite TR. assert (P : 2 ^ n = 2 ^ (n - 32) * 2 ^ 32) by (rewrite <- Z.pow_add_r by lia; f_equal; lia).
  assert (P31 : 2 ^ 31 < 2 ^ 32) by reflexivity. rewrite P. set (q := 2 ^ (n - 32)). set (w := 2 ^ 32) in *. clearbody q w. split.
  - intros [_ X]. right. nia.
  - intros [X|X]; [lia|]. nia.
Qed.
(** A test that raises does so at the end, once, at the element it has come to: where a front
    door access failed, or at once for a read-only memory. *)
Definition raised (e : aerr) : bool := match e with ARaised _ => true | _ => false end.
Theorem C111_raise_last D (wr : D -> Z -> Z -> D * status) rd pk po n mode draws d es : snd (access_seq wr rd pk po n mode draws d) = es ->
  forall k, In (ARaised k) es -> exists l, es = l ++ [ARaised k] /\ Forall (fun e => raised e = false) l /\ 0 <= k < Z.of_nat (length draws) /\
    Forall (fun e => match e with ARaised _ => False | ABack j _ _ | AFront j _ _ => 0 <= j <= k end) l.
Proof.
  unfold access_seq. intros <- k. enough (G : forall draws d k0, In (ARaised k) (snd (access_from wr rd pk po n mode k0 draws d)) -> exists l, snd (access_from wr rd pk po n mode k0 draws d) = l ++ [ARaised k] /\
    Forall (fun e => raised e = false) l /\ k0 <= k < k0 + Z.of_nat (length draws) /\ Forall (fun e => match e with ARaised _ => False | ABack j _ _ | AFront j _ _ => k0 <= j <= k end) l) by (apply G).
  clear. induction draws as [|v vs IH]; intros d k0; [contradiction|]. cbn [access_from length].
  assert (S1 : forall d1 e r, access_step wr rd pk po n mode d k0 v = (d1, e, r) ->
    exists l, Forall (fun e => match e with ARaised _ => False | ABack j _ _ | AFront j _ _ => j = k0 end) l /\ e = if r then l ++ [ARaised k0] else l).
  { intros d1 e r. unfold access_step. destruct mode.
    2: intros H; injection H as <- <- <-; exists []; split; [constructor|reflexivity].
    all: destruct (wr d k0 v) as [d0 s1]; destruct (is_ok s1); [|intros H; injection H as <- <- <-; exists []; split; [constructor|reflexivity]];
      destruct (rd _ k0) as [f s2]; destruct (is_ok s2); intros H; injection H as <- <- <-.
    all: eexists; (split; [|reflexivity]); repeat (apply Forall_app; split).
    all: match goal with |- Forall _ (if ?b then _ else _) => destruct b end; repeat constructor. }
  destruct (access_step wr rd pk po n mode d k0 v) as [[d1 e] r] eqn:E. destruct (S1 d1 e r eq_refl) as (l & Fl & ->).
  assert (NR : forall l, Forall (fun e => match e with ARaised _ => False | ABack j _ _ | AFront j _ _ => j = k0 end) l -> Forall (fun e => raised e = false) l /\ ~ In (ARaised k) l).
  { clear. intros l F. split; [eapply Forall_impl; [|exact F]; intros []; cbn; tauto|]. intros I. rewrite Forall_forall in F. now apply F in I. }
  destruct (NR l Fl) as [N1 N2]. destruct r; cbn [snd].
  - intros I. apply in_app_iff in I as [I|[I|[]]]; [contradiction|]. injection I as ->. exists l. repeat split; auto; try lia.
    eapply Forall_impl; [|exact Fl]. intros [] H; auto; lia.
  - specialize (IH d1 (k0 + 1)). destruct (access_from wr rd pk po n mode (k0 + 1) vs d1) as [d2 e2]. cbn [snd] in *. intros I.
    apply in_app_iff in I as [I|I]; [contradiction|]. destruct (IH I) as (l2 & -> & F1 & B & F2). exists (l ++ l2). rewrite app_assoc.
    repeat split; auto; try lia; apply Forall_app; split; auto.
    + eapply Forall_impl; [|exact Fl]. intros [] H; auto; lia.
    + eapply Forall_impl; [|exact F2]. intros [] H; auto; lia.
Qed.
Print Assumptions C111_raise_last.
(** A read-only memory raises at its first element. *)
Theorem C111_read_only D wr rd pk po n v vs (d : D) : access_seq wr rd pk po n ModeRO (v :: vs) d = (d, [ARaised 0]).
Proof. reflexivity. Qed.
Print Assumptions C111_read_only.
Print Assumptions C111_stuck.
Print Assumptions C111_decoding.
Print Assumptions C111_draw.

Definition f_po (b : Z -> Z) (m : Z -> Z) (n : Z) (d : Z -> Z) (k v : Z) : Z -> Z := fst (f_wr b m n d k v).
(** Stuck bits are found whatever is drawn; two addresses sharing a cell are not; a
    40-bit memory fails though it is correct; several maps with read-only rights: a memory that
    ignores writes over the bus, as it should, fails. *)
Example C111_example :
  let id := fun k : Z => k in let full := fun _ : Z => -1 in
  snd (access_seq (f_wr id (stuck_low 1) 8) (f_rd id) (fun d k => d k) (f_po id (stuck_low 1) 8) 8 ModeRW [7; 8; 9] (fun _ => 0)) =
    [AFront 1 246 247] /\
  snd (access_seq (f_wr (fun _ => 0) full 8) (f_rd (fun _ => 0)) (fun d k => d 0) (f_po (fun _ => 0) full 8) 8 ModeRW [7; 8; 9] (fun _ => 0)) = [].
Proof. vm_compute. auto. Qed.
Theorem C111_wide_limit :
  let id := fun k : Z => k in let full := fun _ : Z => -1 in
  let v := draw 40 256 5 in
  snd (access_seq (f_wr id full 40) (f_rd id) (fun d k => d k) (f_po id full 40) 40 ModeRW [v] (fun _ => 0)) =
    [ABack 0 5 (2 ^ 40 + 5)].
Proof. vm_compute. reflexivity. Qed.
Theorem C111_rights_limit :
  let id := fun k : Z => k in let full := fun _ : Z => -1 in
  snd (access_seq (fun d _ _ => (d, IS_OK)) (f_rd id) (fun d k => d k) (f_po id full 8) 8 ModeNone [7] (fun _ => 0)) =
    [ABack 0 0 7].
Proof. vm_compute. reflexivity. Qed.
Print Assumptions C111_wide_limit.
Print Assumptions C111_rights_limit.

(** ** C112: overlapping memories *)
Theorem C112_overlap l : Forall (fun a => fst a <= snd a) l ->
  (enter_mems [] l = Some l <-> apart l) /\ (enter_mems [] l = None <-> ~ apart l).
Proof. intros H. exact (enter_apart l [] H I). Qed.
Print Assumptions C112_overlap.
Lemma zrange_hd q : 1 <= q -> exists t, zrange q = 0 :: t.
Proof. intros H. unfold zrange. destruct (Z.to_nat q) eqn:E; [lia|]. cbn [seq map]. eexists. reflexivity. Qed.
Lemma zrange_last q : 1 <= q -> exists t, zrange q = t ++ [q - 1].
Proof.
  intros H. unfold zrange. replace (Z.to_nat q) with (Z.to_nat (q - 1) + 1)%nat by lia. rewrite seq_app, map_app. cbn [seq map Nat.add].
  eexists. do 2 f_equal. lia.
Qed.
(** In a map without a parent the range of a memory spans exactly its elements, so two memories
    are refused if and only if the words of one lie between words of the other ... *)
Theorem C112_range l offset n q msize : usable l -> 0 < n -> needs_words n (lw l) q -> 2 <= msize ->
  let r := range_of [l] offset n msize in
  (exists x y, In x (get_physical_addresses [l] offset 0 n) /\ In y (get_physical_addresses [l] offset (msize - 1) n) /\ r = (x, y)) /\
  forall o x, 0 <= o < msize -> In x (get_physical_addresses [l] offset o n) -> fst r <= x <= snd r.
Proof.
  intros Hu Hn Hq Hm r. pose proof Hu as [Hw He]. pose proof (words_eq _ _ _ Hw Hq) as E.
  assert (Q : 1 <= q) by (destruct Hq; nia).
  assert (M : 0 < mult l) by (unfold mult; destruct (lbyte l); lia).
  set (z := loff l + offset).
  assert (G : forall o x, In x (get_physical_addresses [l] offset o n) <-> exists i, 0 <= i < q /\ x = z + (o * q + i) * mult l).
  { intros o x. rewrite gpa_element by auto. cbn [factor]. rewrite in_map_iff.
    destruct (C31_flat_map l offset n q Hu Hn Hq) as (_ & _ & HF). split.
    - intros (y & <- & Hy). apply HF in Hy. destruct Hy as (i & Hi & ->). exists i. split; [exact Hi|]. unfold z. rewrite E. ring.
    - intros (i & Hi & ->). exists (loff l + offset + i * mult l). split; [unfold z; rewrite E; ring|]. apply HF. now exists i. }
  assert (R : r = (z, z + (msize * q - 1) * mult l)).
  { unfold r, range_of, get_physical_addresses. rewrite !phys_root by auto. cbn [fst ideal]. unfold local_addrs. rewrite <- E.
    destruct (Z.leb_spec n (lw l)) as [L|L].
    - assert (q = 1) as -> by (rewrite E; now apply words_one). cbn [map hd last]. f_equal; unfold z; lia.
    - destruct (zrange_hd q Q) as (t1 & T1). destruct (zrange_last q Q) as (t2 & T2).
      assert (HL : forall f : Z -> Z, hd 0 (map f (zrange q)) = f 0 /\ last (map f (zrange q)) 0 = f (q - 1)).
      { intros f. split; [now rewrite T1|]. rewrite T2, map_app. cbn [map]. apply last_last. }
      assert (HX : 0 <= q * mult l - mult l) by nia.
      destruct He as [-> | ->]; rewrite !map_map; rewrite !(proj1 (HL _)), !(proj2 (HL _)); apply (f_equal2 pair); unfold z; lia. }
  split.
  - exists z, (z + (msize * q - 1) * mult l). rewrite !G. split; [exists 0; split; [lia|ring]|].
    split; [exists (q - 1); split; [lia|ring]|exact R].
  - intros o x Ho Hx. rewrite R. apply G in Hx. destruct Hx as (i & Hi & ->). cbn [fst snd].
    assert (0 <= o * q + i <= msize * q - 1) by nia. nia.
Qed.
Print Assumptions C112_range.
(** ... but below another map the words of an element may lie outside its range, so
    that an overlap goes unnoticed. *)
Theorem C112_nested_limit :
  let r1 := range_of [ex_in; ex_top] 16 16 2 in let r2 := range_of [ex_top] 284 4 2 in
  In 4384 (get_physical_addresses [ex_in; ex_top] 16 0 16) /\ In 4384 (get_physical_addresses [ex_top] 284 1 4) /\
  enter_mems [] [r1; r2] = Some [r1; r2].
Proof. vm_compute. auto 10. Qed.
Print Assumptions C112_nested_limit.
Example C112_example : enter_mems [] [(0, 60); (64, 124); (32, 36)] = None /\
  enter_mems [] [(0, 60); (64, 124); (128, 128)] = Some [(0, 60); (64, 124); (128, 128)].
Proof. vm_compute. auto. Qed.
