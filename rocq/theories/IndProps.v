(** Register item copies and indirect registers: C153-C156. *)
From Coq Require Import ZArith List Bool Arith Lia.
From Verif Require Import Prelude IndModel IndSpec IndProofs IndProofs2 IndProofs3.
Import ListNotations.
Local Open Scope nat_scope.

(** * C153: cloning and copying register items *)
Theorem C153_clone cs h s : crun heap0 cs = Some h -> s < nitem h ->
  exists h' t, clone h s = Some (h', t) /\ t = nitem h /\
    (forall i, i < nitem h -> items h' i = items h i /\ value h' i = value h i) /\
    (~ In s (recent cs) -> items h' t = items h s) /\
    (In s (recent cs) -> holds h' t Rd [0%Z] None true None 0 /\ forall i, i < nitem h -> vals (items h' i) <> vals (items h' t)).
Proof.
  intros E HS. destruct (crun_inv cs heap0 [] h wf0 ltac:(now cbn) E) as [HW HG]. fold (recent cs) in HG.
  destruct (in_dec_g s (gmap h)) as [H|H].
  - rewrite clone_recent by auto. eexists _, _. split; [reflexivity|]. split; [reflexivity|]. repeat split.
    + cbn. rewrite upd_neq by lia. reflexivity.
    + unfold value. cbn. rewrite (upd_neq _ (nitem h) i) by lia. rewrite upd_neq; auto. pose proof (proj2 HW i). lia.
    + intros N. destruct N. now apply HG.
    + cbn. now rewrite upd_eq.
    + unfold value. cbn. rewrite upd_eq. cbn. apply upd_eq.
    + cbn. now rewrite upd_eq.
    + cbn. now rewrite upd_eq.
    + cbn. now rewrite upd_eq.
    + cbn. now rewrite upd_eq.
    + intros i Hi. cbn. rewrite upd_eq, upd_neq by lia. cbn. pose proof (proj2 HW i). lia.
  - rewrite clone_new by (auto; lia). eexists _, _. split; [reflexivity|]. split; [reflexivity|]. split; [|split].
    + intros i Hi. unfold value. cbn. rewrite !(upd_neq _ (nitem h) i) by lia. split; auto. rewrite upd_neq; auto. pose proof (proj2 HW i). lia.
    + intros _. cbn. apply upd_eq.
    + intros Q. destruct H. now apply HG.
Qed.
Print Assumptions C153_clone.
Example C153_example :
  let cs := [CNew; CAttr 0 Wr (Some 3) true (Some 4) 5; CList 0 [7; 8]%Z] in
  match crun heap0 (cs ++ [CClone 0]), crun heap0 (cs ++ [CClone 0; CClone 0]), crun heap0 (cs ++ [CClone 0; COther 0; CClone 0]) with
  | Some h1, Some h2, Some h3 =>
      ~ In 0 (recent cs) /\ holds h1 1 Wr [7; 8]%Z (Some 3) true (Some 4) 5 /\
      In 0 (recent (cs ++ [CClone 0])) /\ holds h2 2 Rd [0]%Z None true None 0 /\ holds h2 1 Wr [7; 8]%Z (Some 3) true (Some 4) 5 /\
      ~ In 0 (recent (cs ++ [CClone 0; COther 0])) /\ holds h3 2 Wr [7; 8]%Z (Some 3) true (Some 4) 5
  | _, _, _ => False
  end.
Proof. vm_compute. repeat split; auto. Qed.

Theorem C153_copy cs h d s : crun heap0 cs = Some h ->
  exists h', cstep h (CCopy d s) = Some h' /\ (forall i, i <> d -> items h' i = items h i) /\ cells h' = cells h /\
    items h' d = (if in_dec Nat.eq_dec s (recent cs) then items h d else items h s).
Proof.
  intros E. destruct (crun_inv cs heap0 [] h wf0 ltac:(now cbn) E) as [HW HG]. fold (recent cs) in HG. cbn [cstep].
  destruct (in_dec Nat.eq_dec s (recent cs)) as [H|H].
  - rewrite copy_recent by (now apply HG). eexists. split; [reflexivity|]. auto.
  - rewrite copy_new by (now rewrite HG). eexists. split; [reflexivity|]. cbn. split; [intros i Hi; now apply upd_neq|]. split; auto. apply upd_eq.
Qed.
Print Assumptions C153_copy.
Example C153_copy_example :
  match crun heap0 [CNew; CNew; CList 0 [7]%Z; CCopy 1 0; CPoke 0 0 9%Z; CNew; CCopy 2 0] with
  | Some h => value h 1 = [9%Z] /\ value h 2 = [0%Z] | None => False end.
Proof. vm_compute. split; reflexivity. Qed.

(** A full clone has the very value list of its source: what is written into either shows in both
    until one of them is given another list. *)
Theorem C153_shared cs h s ds h2 : crun heap0 cs = Some h -> s < nitem h -> ~ In s (recent cs) ->
  crun heap0 (cs ++ CClone s :: ds) = Some h2 -> Forall (keeps_list s) ds -> Forall (keeps_list (nitem h)) ds ->
  value h2 (nitem h) = value h2 s.
Proof.
  intros E HS HN E2 F1 F2. rewrite crun_app, E in E2. destruct (C153_clone cs h s E HS) as (h' & t & EC & -> & HK & HF & _).
  destruct (crun_inv cs heap0 [] h wf0 ltac:(now cbn) E) as [HW HG].
  cbn [crun cstep] in E2. rewrite EC in E2. pose proof (wf_clone _ _ _ _ HW EC) as HW'. unfold value. f_equal. symmetry.
  apply (shared_run ds h' h2 s (nitem h)); auto. split; [rewrite (HF HN); now rewrite (proj1 (HK s HS))|].
  unfold clone, new_item in EC. destruct (in_dec_g s (gmap h)) as [H|H]; [rewrite copy_recent in EC by exact H|rewrite copy_new in EC by exact H];
    injection EC as <-; cbn; lia.
Qed.
Print Assumptions C153_shared.
Example C153_shared_example :
  match crun heap0 [CNew; CList 0 [7; 8]%Z; CClone 0; CPoke 1 0 5%Z; CPoke 0 1 6%Z] with
  | Some h => value h 0 = [5; 6]%Z /\ value h 1 = [5; 6]%Z | None => False end.
Proof. vm_compute. split; reflexivity. Qed.

Section Ind.
Context (size : nat) (bits : reg -> Z) (dflt : reg -> nat) (auto : bool).
Local Notation masked := (mask bits).
Local Notation ustep := (ustep size bits dflt auto).

Lemma mask_low r z : mask bits r z = low (bits r) z.
Proof.
  unfold mask, low. destruct (Z.leb_spec 0 (bits r)) as [H|H]; [now apply Z.land_ones|].
  rewrite Z.pow_neg_r by exact H. rewrite Zmod_0_r. unfold Z.ones. replace (Z.shiftl 1 (bits r)) with 0%Z; [apply Z.land_m1_r|].
  rewrite <- (Z.opp_involutive (bits r)), Z.shiftl_opp_r, Z.shiftr_div_pow2 by lia. symmetry. apply Z.div_small. split; [lia|]. apply Z.pow_gt_1; lia.
Qed.
(** The mirror of the table after both predictions *)
Lemma pp_tab m d n x y : Z.of_nat n = masked Idx (Z.of_nat n) -> n < size ->
  let md := pp size bits auto m d Idx (masked Idx (Z.of_nat n)) in
  let md2 := pp size bits auto (fst md) (snd md) Dat x in
  fst (pp size bits auto (fst md2) (snd md2) (Tab n) y) =
  if auto then updr (updr (updr m Idx (Z.of_nat n)) (Tab n) (masked (Tab n) x)) (Tab n) (masked (Tab n) y) else m.
Proof.
  intros HN HS. unfold pp. destruct auto; auto. cbn [fst snd]. 
  assert (HI : updr d Idx (masked Idx (masked Idx (Z.of_nat n))) Idx = Z.of_nat n) by (unfold updr; cbn; now rewrite <- !HN).
  rewrite HI. destruct (Z.leb_spec (Z.of_nat size) (Z.of_nat n)) as [L|L]; [lia|]. cbn [fst snd]. rewrite Nat2Z.id, <- !HN. reflexivity.
Qed.

(** * C154: writing through an indirect register *)
Lemma c154_write_m s n v m a : reach size bits dflt auto s -> free s n -> idx_ok a = true ->
  let M := asked dflt n m in
  exists s' z, ustep s (UTab Wr n v m a) = Some (Finished s' (dat_ok a) z) /\
    bus s' = bus s ++ [Op Wr Idx (masked Idx (Z.of_nat n)) M;
                       if other_copy a then Op Wr Dat (masked Dat (masked Idx (Z.of_nat n))) M else Op Rd Dat 0%Z (dflt Idx)] /\
    (forall r, held s' r = held s r) /\
    (Z.of_nat n = masked Idx (Z.of_nat n) -> n < size -> forall j,
      mir s' (Tab j) = if auto then if Nat.eqb j n then masked (Tab n) (if other_copy a then masked Dat (Z.of_nat n) else Z.of_nat n) else mir s (Tab j)
                       else mir s (Tab j)).
Proof.
  intros HR HF HO M. destruct (tab_ok size bits dflt auto s Wr n v m a (reach_wf2 _ _ _ _ s HR) HF HO) as (s' & E & Eb & (Em & _) & Eh & _).
  exists s', (rw_val bits Wr n a). split; [exact E|]. split; [rewrite Eb; unfold dat_op; destruct (other_copy a); reflexivity|]. split; [exact Eh|].
  intros HN HS j. rewrite Em, pp_tab by auto. destruct auto; auto. unfold updr. cbn [reg_eqb]. destruct (Nat.eqb j n); auto.
  unfold rw_val. rewrite <- HN. destruct (other_copy a); reflexivity.
Qed.
Theorem C154_write s n v m a : reach size bits dflt auto s -> free s n -> idx_ok a = true ->
  let M := asked dflt n m in
  exists s' z, ustep s (UTab Wr n v m a) = Some (Finished s' (dat_ok a) z) /\
    bus s' = bus s ++ [Op Wr Idx (low (bits Idx) (Z.of_nat n)) M;
                       if other_copy a then Op Wr Dat (low (bits Dat) (low (bits Idx) (Z.of_nat n))) M else Op Rd Dat 0%Z (dflt Idx)] /\
    (forall r, held s' r = held s r) /\
    (Z.of_nat n = low (bits Idx) (Z.of_nat n) -> n < size -> forall j,
      mir s' (Tab j) = if auto then if Nat.eqb j n then low (bits (Tab n)) (if other_copy a then low (bits Dat) (Z.of_nat n) else Z.of_nat n) else mir s (Tab j)
                       else mir s (Tab j)).
Proof.
  rewrite <- ?mask_low. apply c154_write_m.
Qed.

(** The value written does not matter: neither to the bus nor to status, mirror and later calls. *)
Theorem C154_lost s n v v' m a : reach size bits dflt auto s -> free s n -> idx_ok a = true ->
  exists s1 s2 st z, ustep s (UTab Wr n v m a) = Some (Finished s1 st z) /\ ustep s (UTab Wr n v' m a) = Some (Finished s2 st z) /\
    bus s1 = bus s2 /\ (forall r, mir s1 r = mir s2 r) /\ (auto = true -> forall r, des s1 r = des s2 r).
Proof.
  intros HR HF HO. pose proof (reach_wf2 _ _ _ _ s HR) as HW.
  destruct (tab_ok size bits dflt auto s Wr n v m a HW HF HO) as (s1 & E1 & B1 & (M1 & D1) & _).
  destruct (tab_ok size bits dflt auto s Wr n v' m a HW HF HO) as (s2 & E2 & B2 & (M2 & D2) & _).
  exists s1, s2, (dat_ok a), (rw_val bits Wr n a). split; [exact E1|]. split; [exact E2|]. split; [now rewrite B1, B2|].
  assert (Q : forall r, mir s1 r = mir s2 r /\ (auto = true -> des s1 r = des s2 r)).
  { intros r. rewrite M1, M2, D1, D2. unfold des1, pp. destruct auto; [|split; [reflexivity|discriminate]]. cbn [fst snd]. cbn [updr reg_eqb].
    destruct (_ <=? _)%Z; cbn [fst snd]; split; auto; intros _; unfold updr; destruct (reg_eqb r (Tab n)) eqn:ER; auto. }
  split; intros; now apply Q.
Qed.

(** * C155: reading through an indirect register *)
Lemma c155_read_m s n v m a : reach size bits dflt auto s -> free s n -> idx_ok a = true ->
  let M := asked dflt n m in let z := if dat_ok a then rdata a else 0%Z in
  exists s', ustep s (UTab Rd n v m a) = Some (Finished s' (dat_ok a) z) /\
    bus s' = bus s ++ [Op Wr Idx (masked Idx (Z.of_nat n)) M; Op Rd Dat 0%Z (if other_copy a then M else dflt Idx)] /\
    (forall r, held s' r = held s r) /\
    (Z.of_nat n = masked Idx (Z.of_nat n) -> n < size -> forall j,
      mir s' (Tab j) = if auto then if Nat.eqb j n then masked (Tab n) z else mir s (Tab j) else mir s (Tab j)).
Proof.
  intros HR HF HO M z. destruct (tab_ok size bits dflt auto s Rd n v m a (reach_wf2 _ _ _ _ s HR) HF HO) as (s' & E & Eb & (Em & _) & Eh & _).
  exists s'. split; [exact E|]. split; [rewrite Eb; unfold dat_op; destruct (other_copy a); reflexivity|]. split; [exact Eh|].
  intros HN HS j. rewrite Em, pp_tab by auto. destruct auto; auto. unfold updr. cbn [reg_eqb]. destruct (Nat.eqb j n); auto.
Qed.
Theorem C155_read s n v m a : reach size bits dflt auto s -> free s n -> idx_ok a = true ->
  let M := asked dflt n m in let z := if dat_ok a then rdata a else 0%Z in
  exists s', ustep s (UTab Rd n v m a) = Some (Finished s' (dat_ok a) z) /\
    bus s' = bus s ++ [Op Wr Idx (low (bits Idx) (Z.of_nat n)) M; Op Rd Dat 0%Z (if other_copy a then M else dflt Idx)] /\
    (forall r, held s' r = held s r) /\
    (Z.of_nat n = low (bits Idx) (Z.of_nat n) -> n < size -> forall j,
      mir s' (Tab j) = if auto then if Nat.eqb j n then low (bits (Tab n)) z else mir s (Tab j) else mir s (Tab j)).
Proof.
  intros HR HF HO M z. destruct (c155_read_m s n v m a HR HF HO) as (s' & A & B & C & D). exists s'. rewrite <- ?mask_low.
  split; [exact A|]. split; [exact B|]. split; [exact C|]. intros HN HS j. rewrite <- ?mask_low. exact (D HN HS j).
Qed.

(** * C156: the index register cannot be written *)
(** The call ends with status ok and the number of the register as its value ... *)
Lemma c156_status_m s k n v m a : reach size bits dflt auto s -> free s n -> idx_ok a = false ->
  exists s', ustep s (UTab k n v m a) = Some (Finished s' true (masked Idx (Z.of_nat n))) /\
    bus s' = bus s ++ [Op Wr Idx (masked Idx (Z.of_nat n)) (asked dflt n m)] /\
    mir s' (Tab n) = if auto then masked (Tab n) (masked Idx (Z.of_nat n)) else mir s (Tab n).
Proof.
  intros HR HF HO. destruct (tab_fail size bits dflt auto s k n v m a (reach_wf2 _ _ _ _ s HR) HF HO) as (s' & E & Eb & Em & _).
  exists s'. split; [exact E|]. split; [exact Eb|]. rewrite Em. unfold pp. destruct auto; auto. cbn [fst]. unfold updr. cbn [reg_eqb]. now rewrite Nat.eqb_refl.
Qed.
Theorem C156_status s k n v m a : reach size bits dflt auto s -> free s n -> idx_ok a = false ->
  exists s', ustep s (UTab k n v m a) = Some (Finished s' true (low (bits Idx) (Z.of_nat n))) /\
    bus s' = bus s ++ [Op Wr Idx (low (bits Idx) (Z.of_nat n)) (asked dflt n m)] /\
    mir s' (Tab n) = if auto then low (bits (Tab n)) (low (bits Idx) (Z.of_nat n)) else mir s (Tab n).
Proof.
  rewrite <- ?mask_low. apply c156_status_m.
Qed.
(** ... and from then on no access to the table, the index or the data register ever returns. *)
Theorem C156_stuck s k n v m a s' st z s2 u : reach size bits dflt auto s -> free s n -> idx_ok a = false ->
  ustep s (UTab k n v m a) = Some (Finished s' st z) -> later size bits dflt auto s' s2 -> resets_locks u = false -> needs_lock u = true ->
  stuck_on (ustep s2 u) s2.
Proof.
  intros HR HF HO E HL HU HN. destruct (tab_fail size bits dflt auto s k n v m a (reach_wf2 _ _ _ _ s HR) HF HO) as (s1 & E1 & _ & _ & HI & HD & _).
  cbn [IndModel.ustep] in E. rewrite E1 in E. injection E as <- <- <-.
  assert (J : jam s2) by (eapply later_jam; [exact HL|split; auto]).
  destruct (ustep_jam size bits dflt auto s2 u J HU) as (s3 & _ & _ & Q). exists s3. now apply Q.
Qed.

(** Otherwise an access whose locks are free always ends, and gives them back. *)
Theorem C156_ends s k n v m a : reach size bits dflt auto s -> free s n ->
  exists s' st z, ustep s (UTab k n v m a) = Some (Finished s' st z) /\ (free s' n <-> idx_ok a = true).
Proof.
  intros HR HF. pose proof (reach_wf2 _ _ _ _ s HR) as HW. destruct (idx_ok a) eqn:HO.
  - destruct (tab_ok size bits dflt auto s k n v m a HW HF HO) as (s' & E & _ & _ & Eh & _). exists s', (dat_ok a), (rw_val bits k n a). split; auto.
    split; auto. intros _. unfold free. now rewrite !Eh.
  - destruct (tab_fail size bits dflt auto s k n v m a HW HF HO) as (s' & E & _ & _ & HI & _). eexists s', _, _. split; [exact E|].
    split; [|discriminate]. intros (Q & _). congruence.
Qed.
End Ind.
Print Assumptions C154_write.
Print Assumptions C154_lost.
Print Assumptions C155_read.
Print Assumptions C156_status.
Print Assumptions C156_stuck.
Print Assumptions C156_ends.

(** ** Concrete accesses: 16 registers of 8 bits, map 0 the default, map 1 asked for *)
Definition ex_bits (_ : reg) : Z := 8%Z.
Definition ex_s : sys := Sys heap0 [] (fun _ => 0%Z) (fun _ => 0%Z) (fun _ => false).
Example ex_reach : reach 16 ex_bits (fun _ => 0) true ex_s.
Proof. apply r_start. Qed.
Definition ex_us := ustep 16 ex_bits (fun _ => 0) true.
Example C154_example : free ex_s 5 /\
  match ex_us ex_s (UTab Wr 5 0xA7 (Some 1) (Answers true true 0 false)), ex_us ex_s (UTab Wr 5 0xA7 (Some 1) (Answers true true 0 true)) with
  | Some (Finished s1 st1 _), Some (Finished s2 st2 _) =>
      st1 = true /\ bus s1 = [Op Wr Idx 5 1; Op Rd Dat 0 0] /\ mir s1 (Tab 5) = 5%Z /\
      st2 = true /\ bus s2 = [Op Wr Idx 5 1; Op Wr Dat 5 1] /\ mir s2 (Tab 5) = 5%Z
  | _, _ => False
  end.
Proof. vm_compute. repeat split; reflexivity. Qed.
Example C155_example :
  match ex_us ex_s (UTab Rd 5 0 (Some 1) (Answers true true 0x3C false)) with
  | Some (Finished s1 st z) => st = true /\ z = 0x3C%Z /\ bus s1 = [Op Wr Idx 5 1; Op Rd Dat 0 0] /\ mir s1 (Tab 5) = 0x3C%Z
  | _ => False
  end.
Proof. vm_compute. repeat split; reflexivity. Qed.
Example C156_example :
  match ex_us ex_s (UTab Rd 5 0 (Some 1) (Answers false true 0x3C false)) with
  | Some (Finished s1 st z) =>
      st = true /\ z = 5%Z /\ bus s1 = [Op Wr Idx 5 1] /\
      stuck_on (ex_us s1 (UTab Rd 6 0 None (Answers true true 0 false))) s1 /\ stuck_on (ex_us s1 (UDirect Idx Rd 0 None true 0)) s1 /\
      match ex_us s1 (UReset Idx) with
      | Some (Finished s2 _ _) => match ex_us s2 (UReset Dat) with
                                  | Some (Finished s3 _ _) => free s3 5
                                  | _ => False end
      | _ => False end
  | _ => False
  end.
Proof. vm_compute. repeat split; try reflexivity; eexists; split; reflexivity. Qed.
(** Without the other process in between, a direct access still works on the same bus. *)
Example C156_limit :
  match ex_us ex_s (UDirect Idx Wr 9 None true 0) with Some (Finished s1 st z) => st = true /\ bus s1 = [Op Wr Idx 9 0] /\ free s1 0 | _ => False end.
Proof. vm_compute. repeat split; reflexivity. Qed.
