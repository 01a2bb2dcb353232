(** Register blocks: the properties C127 to C131. *)
From Coq Require Import List Bool Arith ZArith String Lia.
From Verif Require Import Prelude RegBlkModel RegBlkSpec RegBlkProofs.
Import ListNotations.
Local Open Scope nat_scope.
Local Open Scope list_scope.

(** ** C127: updating a block *)
Section C127.
Context {X : Type} (needs : nat -> X -> bool) (upd_reg : nat -> X -> X * option stat).
(** The registers update() of the block calls update() of, and its status, none when it raises. *)
Definition updated (b : blk) (x : X) : list nat := snd (fst (update needs upd_reg b x)).
Definition status (b : blk) (x : X) : option stat := snd (update needs upd_reg b x).
Definition after (b : blk) (x : X) : X := fst (fst (update needs upd_reg b x)).

Theorem C127_reach b x : incl (updated b x) (spine b).
Proof. apply update_in. Qed.
Theorem C127_children b x s : subs b <> [] -> status b x = Some s -> s = NotOk.
Proof.
  intros H E. destruct (update_children needs upd_reg b x H) as [A|(s' & A & B)]; unfold status in E; rewrite A in E; [discriminate|].
  injection E as ->. destruct s; auto; discriminate.
Qed.
Theorem C127_all b x :
  (forall r r' x, r <> r' -> needs r' (fst (upd_reg r x)) = needs r' x) ->
  (forall r x, snd (upd_reg r x) = Some IsOk) ->
  (forall r x, needs r (fst (upd_reg r x)) = false) ->
  NoDup (spine b) ->
  updated b x = filter (fun r => needs r x) (spine b) /\
  status b x = (match subs b with [] => Some IsOk | _ => None end) /\
  (forall r, needs r (after b x) = true <-> needs r x = true /\ ~ In r (spine b)).
Proof.
  intros F G C N. destruct (update_good needs upd_reg F) with (b := b) (x := x) as (x' & E & A & B); auto.
  - intros r y. exists IsOk. auto.
  - unfold updated, status, after. rewrite E. cbn [fst snd]. repeat split; auto.
    + destruct (in_dec Nat.eq_dec r (spine b)) as [I|I]; [rewrite B in H; [discriminate|auto]|]. now rewrite A in H.
    + intros I. rewrite B in H; [discriminate|auto].
    + intros [H I]. now rewrite A.
Qed.
Theorem C127_failure b x :
  status b x = Some NotOk ->
  exists pre r post, regs b = pre ++ r :: post /\ incl (updated b x) (pre ++ [r]) /\ updated b x <> [] /\ last (updated b x) 0 = r.
Proof.
  unfold status, updated. destruct b as [i rs s]. cbn [update regs]. destruct (update_regs needs upd_reg rs x) as [[x1 l] f] eqn:E.
  destruct f; cbn.
  - destruct s; [discriminate|]. destruct (update needs upd_reg b x1) as [[x2 l2] o]. discriminate.
  - intros H. injection H as ->. destruct (update_regs_fail _ _ _ _ _ _ _ E) as (pre & r & post & A & B & C & D & _). exists pre, r, post. repeat split; auto.
    clear - C D. destruct l as [|a l]; [congruence|]. clear D. revert a C. induction l as [|c l IH]; intros a C; auto. exact (IH c C).
  - discriminate.
Qed.
End C127.
Print Assumptions C127_reach.
Print Assumptions C127_children.
Print Assumptions C127_all.
Print Assumptions C127_failure.

(** A design of registers that need an update when they are in the list. *)
Definition ex_needs (r : nat) (x : list nat) : bool := existsb (Nat.eqb r) x.
Definition ex_upd (fails : nat -> bool) (r : nat) (x : list nat) : list nat * option stat :=
  if fails r then (x, Some NotOk) else (filter (fun y => negb (Nat.eqb r y)) x, Some IsOk).
Definition ex_blk : blk := Blk 0 [1; 2] [Blk 1 [3] [Blk 2 [4] []; Blk 3 [5] []]; Blk 4 [6] []].
Example C127_example :
  update ex_needs (ex_upd (fun _ => false)) ex_blk [1; 3; 4; 5; 6] = ([5; 6], [1; 3; 4], None) /\
  update ex_needs (ex_upd (fun _ => false)) (Blk 0 [1; 2; 3] []) [3; 1] = ([], [1; 3], Some IsOk) /\
  update ex_needs (ex_upd (Nat.eqb 2)) (Blk 0 [1; 2; 3] []) [1; 2; 3] = ([2; 3], [1; 2], Some NotOk).
Proof. repeat split. Qed.
Example C127_example_frame : let u := ex_upd (fun _ => false) in
  (forall r r' x, r <> r' -> ex_needs r' (fst (u r x)) = ex_needs r' x) /\
  (forall r x, snd (u r x) = Some IsOk) /\ (forall r x, ex_needs r (fst (u r x)) = false) /\ NoDup (spine ex_blk).
Proof.
  cbn. unfold ex_needs. repeat split; auto.
  - intros r r' x H. induction x as [|a x IH]; cbn; auto. destruct (Nat.eqb_spec r a); cbn; rewrite IH; auto.
    destruct (Nat.eqb_spec r' a); auto. congruence.
  - intros r x. induction x as [|a x IH]; cbn; auto. destruct (Nat.eqb_spec r a); cbn; auto. rewrite IH. destruct (Nat.eqb_spec r a); auto. congruence.
  - repeat constructor; cbn; intuition lia.
Qed.

(** ** C128: reset, needs_update and mirror cover all registers below the block *)
Theorem C128_reset {X : Type} (rst_reg : nat -> X -> X) b x :
  reset rst_reg b x = fold_left (fun x r => rst_reg r x) (flat_map regs (b :: get_blocks b)) x.
Proof. rewrite reset_eq, registers_blocks. reflexivity. Qed.
Theorem C128_needs {X : Type} (needs : nat -> X -> bool) b x :
  needs_update needs b x = true <-> exists c r, In c (b :: get_blocks b) /\ In r (regs c) /\ needs r x = true.
Proof.
  rewrite needs_eq, registers_blocks, existsb_exists. split.
  - intros (r & I & N). apply in_flat_map in I. destruct I as (c & I & J). eauto.
  - intros (c & r & I & J & N). exists r. split; auto. apply in_flat_map. eauto.
Qed.
Theorem C128_mirror {X : Type} (mir_reg : nat -> X -> X * option stat) b x :
  mirror mir_reg b x =
  let (x1, t) := sweep mir_reg (flat_map regs (b :: get_blocks b)) x in (x1, map fst t, summary t).
Proof. rewrite mirror_sweep, registers_blocks. reflexivity. Qed.
Corollary C128_mirror_all {X : Type} (mir_reg : nat -> X -> X * option stat) b x :
  (forall r x, snd (mir_reg r x) <> None) ->
  snd (fst (mirror mir_reg b x)) = flat_map regs (b :: get_blocks b) /\ snd (mirror mir_reg b x) <> None.
Proof.
  intros H. rewrite C128_mirror. generalize (flat_map regs (b :: get_blocks b)). intros l. revert x. induction l as [|r l IH]; intros x.
  - cbn. split; auto. discriminate.
  - cbn [sweep]. specialize (H r x). destruct (mir_reg r x) as [x1 [s|]]; cbn in H; [|congruence]. specialize (IH x1). destruct (sweep mir_reg l x1) as [x2 t].
    cbn in *. destruct IH as [A B]. split; [now rewrite A|]. unfold summary in *. cbn.
    destruct (existsb (fun p => match snd p with None => true | _ => false end) t); auto. destruct (_ || _); discriminate.
Qed.
Print Assumptions C128_reset.
Print Assumptions C128_needs.
Print Assumptions C128_mirror.
Print Assumptions C128_mirror_all.
Definition ex_mir (o : nat -> option stat) (r : nat) (x : list nat) : list nat * option stat := (x ++ [r], o r).
Example C128_example :
  reset (fun r x => x ++ [r]) ex_blk [] = [1; 2; 3; 4; 5; 6] /\
  needs_update ex_needs ex_blk [5] = true /\ needs_update ex_needs ex_blk [7] = false /\
  mirror (ex_mir (fun r => if Nat.eqb r 2 then Some NotOk else Some IsOk)) ex_blk [] = ([1; 2; 3; 4; 5; 6], [1; 2; 3; 4; 5; 6], Some NotOk) /\
  mirror (ex_mir (fun r => if Nat.eqb r 4 then None else Some IsOk)) ex_blk [] = ([1; 2; 3; 4], [1; 2; 3; 4], None).
Proof. repeat split. Qed.

(** ** C129: lookup by name *)
Theorem C129_registers b : get_registers b = flat_map regs (b :: get_blocks b).
Proof. apply registers_blocks. Qed.
Theorem C129_found name b n r :
  get_reg_by_name name b n = Some r <->
  exists pre post, flat_map regs (b :: get_blocks b) = pre ++ r :: post /\ name r = n /\ forall q, In q pre -> name q <> n.
Proof.
  rewrite by_name_find, registers_blocks. generalize (flat_map regs (b :: get_blocks b)). intros l. split.
  - induction l as [|a l IH]; cbn; [discriminate|]. destruct (Nat.eqb_spec (name a) n) as [E|E].
    + intros H. injection H as ->. exists [], l. repeat split; auto.
    + intros H. destruct (IH H) as (pre & post & -> & A & B). exists (a :: pre), post. repeat split; auto. intros q [<-|I]; auto.
  - intros (pre & post & -> & A & B). induction pre as [|a pre IH]; cbn.
    + now rewrite A, Nat.eqb_refl.
    + destruct (Nat.eqb_spec (name a) n); [exfalso; eapply B; eauto; now left|]. apply IH. intros q I. apply B. now right.
Qed.
Theorem C129_missing name b n :
  get_reg_by_name name b n = None <-> forall r, In r (flat_map regs (b :: get_blocks b)) -> name r <> n.
Proof.
  rewrite by_name_find, registers_blocks. split.
  - intros H r I. pose proof (find_none _ _ H r I) as E. cbn beta in E. now apply Nat.eqb_neq in E.
  - intros H. destruct (find _ _) as [r|] eqn:E; auto. apply find_some in E. destruct E as [I E]. apply Nat.eqb_eq in E. exfalso. eapply H; eauto.
Qed.
Print Assumptions C129_registers.
Print Assumptions C129_found.
Print Assumptions C129_missing.
Example C129_example :
  let name r := Nat.modulo r 3 in
  get_reg_by_name name ex_blk 0 = Some 3 /\ get_reg_by_name name ex_blk 2 = Some 2 /\ get_reg_by_name name ex_blk 7 = None.
Proof. repeat split. Qed.

(** ** C130: construction and locking *)
Theorem C130_lock cs b : let s := brun binit cs in
  b < count s ->
  exists s', bstep s (BLock b) = (s', true) /\
    kids s' = kids s /\ bregs s' = bregs s /\
    forall c, locked s' c = true <-> locked s c = true \/ below (kids s) b c.
Proof.
  intros s B. destruct (bstep_lock s b (binv_run cs) B) as (s' & E & P). exists s'. split; auto. split; [apply (po_kids _ _ _ P)|]. split; [apply (po_bregs _ _ _ P)|].
  now apply lock_below; [apply binv_run|].
Qed.
Theorem C130_closed cs b c : let s := brun binit cs in
  locked s b = true -> below (kids s) b c -> locked s c = true /\ forall r, In r (bregs s c) -> rlocked s r = true.
Proof.
  intros s L H. assert (K : locked s c = true).
  { induction H; auto. eapply (bi_closed _ (binv_run cs)); eauto. }
  split; auto. intros r I. apply (bi_rlocked _ (binv_run cs)). eauto.
Qed.
Theorem C130_registers cs r : let s := brun binit cs in
  rlocked s r = true <-> exists b, locked s b = true /\ In r (bregs s b).
Proof. apply (bi_rlocked _ (binv_run cs)). Qed.
Lemma brun_app s a b : brun s (a ++ b) = brun (brun s a) b.
Proof. revert s. induction a; intros s; cbn; auto. Qed.
Theorem C130_frozen cs cs' b :
  locked (brun binit cs) b = true ->
  locked (brun binit (cs ++ cs')) b = true /\
  kids (brun binit (cs ++ cs')) b = kids (brun binit cs) b /\ bregs (brun binit (cs ++ cs')) b = bregs (brun binit cs) b.
Proof. intros L. rewrite brun_app. apply frozen; auto. apply binv_run. Qed.
Theorem C130_add cs p c : let s := brun binit cs in
  let (s', ok) := bstep s (BAdd p c) in
  (ok = true <-> p < count s /\ c < count s /\ locked s p = false /\ ~ In c (kids s p)) /\
  kids s' p = (if ok then kids s p ++ [c] else kids s p) /\
  (forall b, b <> p -> kids s' b = kids s b) /\ bregs s' = bregs s /\ locked s' = locked s.
Proof.
  intros s. unfold bstep, add_block. destruct (Nat.ltb_spec p (count s)) as [A|A], (Nat.ltb_spec c (count s)) as [B|B]; cbn [andb];
    try (repeat split; auto; try discriminate; try tauto; intros; lia).
  destruct (locked s p) eqn:L; [repeat split; auto; try discriminate; intros (_ & _ & H & _); discriminate|].
  destruct (memb c (kids s p)) eqn:M.
  - apply memb_in in M. repeat split; auto; try discriminate. tauto.
  - apply memb_false in M. cbn. unfold upd. rewrite Nat.eqb_refl. repeat split; auto. intros b H. destruct (Nat.eqb_spec b p); congruence.
Qed.
Theorem C130_add_reg cs p r : let s := brun binit cs in
  let (s', ok) := bstep s (BReg p r) in
  (ok = true <-> p < count s /\ locked s p = false /\ ~ In r (bregs s p)) /\
  bregs s' p = (if ok then bregs s p ++ [r] else bregs s p) /\
  (forall b, b <> p -> bregs s' b = bregs s b) /\ kids s' = kids s /\ locked s' = locked s.
Proof.
  intros s. unfold bstep, add_reg. destruct (Nat.ltb_spec p (count s)) as [A|A];
    try (repeat split; auto; try discriminate; try tauto; intros; lia).
  destruct (locked s p) eqn:L; [repeat split; auto; try discriminate; intros (_ & H & _); discriminate|].
  destruct (memb r (bregs s p)) eqn:M.
  - apply memb_in in M. repeat split; auto; try discriminate. tauto.
  - apply memb_false in M. cbn. unfold upd. rewrite Nat.eqb_refl. repeat split; auto. intros b H. destruct (Nat.eqb_spec b p); congruence.
Qed.
Theorem C130_once cs b : NoDup (kids (brun binit cs) b) /\ NoDup (bregs (brun binit cs) b).
Proof. split; [apply (bi_kids _ (binv_run cs))|apply (bi_regs _ (binv_run cs))]. Qed.
Print Assumptions C130_lock.
Print Assumptions C130_closed.
Print Assumptions C130_registers.
Print Assumptions C130_frozen.
Print Assumptions C130_add.
Print Assumptions C130_add_reg.
Print Assumptions C130_once.
(** Blocks 0 > 1 > 2 and 3; a block may even be added below itself. *)
Definition ex_calls : list bcall := [BNew; BNew; BNew; BNew; BAdd 0 1; BAdd 1 2; BAdd 2 0; BReg 2 7; BReg 2 7; BReg 3 8; BLock 1; BReg 0 9; BAdd 1 3; BReg 3 9].
Example C130_example : let s := brun binit ex_calls in
  map (locked s) [0; 1; 2; 3] = [true; true; true; false] /\ map (kids s) [0; 1; 2; 3] = [[1]; [2]; [0]; []] /\
  map (bregs s) [0; 1; 2; 3] = [[]; []; [7]; [8; 9]] /\ map (rlocked s) [7; 8; 9] = [true; false; false].
Proof. repeat split. Qed.
(** A block added to a locked one is refused; a lock does not reach what is added to a parent
    of the locked block. *)
Example C130_example2 : let s := brun binit [BNew; BNew; BNew; BAdd 0 1; BLock 1; BAdd 0 2; BReg 2 5] in
  map (locked s) [0; 1; 2] = [false; true; false] /\ kids s 0 = [1; 2].
Proof. repeat split. Qed.

(** ** C131: HDL paths *)
Theorem C131_block sep k l p :
  In p (full_hdl_path sep k l) <->
  exists cs, parts (if String.eqb k "" then default_kind l else k) l cs /\ p = String.concat sep cs.
Proof. apply full_parts. Qed.
Theorem C131_register sep rown k l c : k <> ""%string ->
  forall out, reg_full_hdl_path sep false rown k l = Some out ->
  (In c out <-> exists mine cs, (exists all, rown k = Some all /\ In mine all) /\ parts k l cs /\
     c = map (fun s => if String.eqb (s_path s) "" then Slice (String.concat sep cs) (-1) (-1)
                       else Slice (String.concat sep (cs ++ [s_path s])) (s_off s) (s_size s)) mine).
Proof.
  intros K out. unfold reg_full_hdl_path. rewrite andb_false_l. apply String.eqb_neq in K. rewrite K.
  destruct (rown k) as [all|].
  2:{ intros H. injection H as <-. split; [intros []|]. intros (mine & cs & (a & A & _) & _). discriminate. }
  intros H. injection H as <-. rewrite in_flat_map. unfold full_hdl_path. rewrite K.
  assert (M : forall cs mine, cs <> [] -> map (slice_under sep (String.concat sep cs)) mine =
     map (fun s => if String.eqb (s_path s) "" then Slice (String.concat sep cs) (-1) (-1)
                   else Slice (String.concat sep (cs ++ [s_path s])) (s_off s) (s_size s)) mine).
  { intros cs mine N. apply map_ext. intros s. unfold slice_under. destruct (String.eqb (s_path s) ""); [reflexivity|]. rewrite concat_snoc by exact N. reflexivity. }
  split.
  - intros (mine & A & I). apply in_map_iff in I. destruct I as (p & <- & I). apply full_parts in I. destruct I as (cs & P & ->).
    exists mine, cs. split; eauto. split; auto. apply M. eapply parts_nonempty; eauto.
  - intros (mine & cs & (a & A & I) & P & ->). injection A as <-. exists mine. split; auto. apply in_map_iff. exists (String.concat sep cs). split.
    + apply M. eapply parts_nonempty; eauto.
    + apply full_parts. eauto.
Qed.
(** A register with slices of its own has no full path when its block has none. *)
Theorem C131_no_parent sep rown k l : k <> ""%string ->
  (forall cs, ~ parts k l cs) -> reg_full_hdl_path sep false rown k l = Some [].
Proof.
  intros K H. pose proof (C131_register sep rown k l) as R. destruct (reg_full_hdl_path sep false rown k l) as [out|] eqn:E.
  - f_equal. destruct out as [|c out]; auto. exfalso. specialize (R c K _ eq_refl). destruct R as [R _]. destruct (R (or_introl eq_refl)) as (m & cs & _ & P & _). eapply H; eauto.
  - exfalso. revert E. unfold reg_full_hdl_path. cbn. apply String.eqb_neq in K. rewrite K. destruct (rown k); discriminate.
Qed.
(** For a register of a register file it raises, unless the kind is given and the register has no
    path of that kind. *)
Theorem C131_in_file sep rown k l :
  reg_full_hdl_path sep true rown k l = None <-> k = ""%string \/ rown k <> None.
Proof.
  unfold reg_full_hdl_path. cbn [andb]. destruct (String.eqb_spec k "").
  - tauto.
  - destruct (rown k); (split; intros H; auto; try discriminate); [right; discriminate|destruct H; congruence].
Qed.
Print Assumptions C131_block.
Print Assumptions C131_register.
Print Assumptions C131_no_parent.
Print Assumptions C131_in_file.
Local Open Scope string_scope.
Definition only {A} (v : A) : string -> option A := fun k => if String.eqb k "RTL" then Some v else None.
Definition nothing {A} : string -> option A := fun _ => None.
Definition ex_levels : list level :=
  [Level (only ["u0"; ""]) nothing ""; Level (only ["core"; "alt"]) nothing "RTL"; Level nothing (only "top") "GATES"].
Example C131_example :
  full_hdl_path "." "" ex_levels = ["top.core.u0"; "top.alt.u0"; "top.core"; "top.alt"] /\
  full_hdl_path "." "GATES" ex_levels = [] /\
  reg_full_hdl_path "." false (only [[Slice "r" 0 8; Slice "" 8 8]]) "RTL" (tl ex_levels) =
    Some [[Slice "top.core.r" 0 8; Slice "top.core" (-1) (-1)]; [Slice "top.alt.r" 0 8; Slice "top.alt" (-1) (-1)]] /\
  reg_full_hdl_path "." true (only [[Slice "r" 0 8]]) "RTL" (tl ex_levels) = None /\
  reg_full_hdl_path "." false (only [[Slice "r" 0 8]]) "RTL" [Level nothing nothing "RTL"] = Some [].
Proof. repeat split. Qed.
Example C131_example_parts : parts "RTL" ex_levels ["top"; "alt"; "u0"].
Proof.
  cbn. exists ["u0"; ""], "u0". split; auto. split; [now left|]. left. exists ["top"; "alt"]. split; auto.
  exists ["core"; "alt"], "alt". split; auto. split; [right; now left|]. left. exists ["top"]. split; auto. split; auto. discriminate.
Qed.
