(** Theorems about leaving out register and memory tests. *)
From Coq Require Import List Bool Arith ZArith Lia Sorted.
From Verif Require Import Prelude ResourceModel ResourceSpec ResourceProofs ResourceProps ExcModel ExcSpec.
Import ListNotations.
Local Open Scope nat_scope.

Section NodeInd.
Context (P : node -> Prop) (H : forall p rs ms bs, Forall P bs -> P (Node p rs ms bs)).
Fixpoint node_ind' (n : node) : P n :=
  let '(Node p rs ms bs) := n in
  H p rs ms bs ((fix go l : Forall P l := match l with [] => Forall_nil P | t :: l => Forall_cons t (node_ind' t) (go l) end) bs).
End NodeInd.

(** ** Blocks beneath *)
Lemma blocks_eq p rs ms bs : get_blocks (Node p rs ms bs) = flat_map (fun c => c :: get_blocks c) bs.
Proof. cbn [get_blocks]. induction bs as [|c bs IH]; [reflexivity|]. cbn [flat_map app]. now rewrite <- IH. Qed.
Lemma in_blocks x : forall n, In x (n :: get_blocks n) <-> beneath x n.
Proof.
  induction n as [p rs ms bs IH] using node_ind'. rewrite Forall_forall in IH. rewrite blocks_eq. cbn [In]. rewrite in_flat_map. split.
  - intros [<-|(c & I & W)]; [constructor|]. apply beneath_sub with c; auto. now apply IH.
  - intros W. inversion W; subst; auto. right. exists c. split; auto. now apply IH.
Qed.
Lemma beneath_trans a b : beneath a b -> forall c, beneath b c -> beneath a c.
Proof. intros W c V. revert W. induction V as [n|n p rs ms bs c I V IH]; intros W; auto. apply beneath_sub with c; auto. Qed.
Lemma sub_height c p rs ms bs : In c bs -> height c < height (Node p rs ms bs).
Proof.
  intros I. cbn [height]. pose proof (proj1 (list_max_le (map height bs) (list_max (map height bs))) (le_n _)) as F.
  rewrite Forall_forall in F. specialize (F (height c) (in_map height bs c I)). lia.
Qed.
Lemma beneath_height a n : beneath a n -> height a <= height n.
Proof. induction 1 as [|a p rs ms bs c I V IH]; auto. pose proof (sub_height c p rs ms bs I). lia. Qed.
Lemma blocks_height x n : In x (get_blocks n) -> height x < height n /\ beneath x n.
Proof.
  destruct n as [p rs ms bs]. rewrite blocks_eq, in_flat_map. intros (c & I & W). apply in_blocks in W.
  split; [pose proof (sub_height c p rs ms bs I); pose proof (beneath_height x c W); lia|now apply beneath_sub with c].
Qed.
Lemma beneath_cases x n : beneath x n -> x = n \/ In x (get_blocks n).
Proof. intros W. apply in_blocks in W. destruct W; auto. Qed.

Lemma each_in f l : (forall b, In b l -> exists r, f b = Some r) ->
  exists r, each f l = Some r /\ forall e, In e r <-> exists b x, In b l /\ f b = Some x /\ In e x.
Proof.
  induction l as [|b l IH]; intros H.
  - exists []. split; auto. intros e. split; [intros []|intros (b & x & [] & _)].
  - destruct (H b (or_introl eq_refl)) as (x & Ex). destruct IH as (y & Ey & IHy). { intros c I. apply H. now right. }
    exists (x ++ y). cbn. rewrite Ex, Ey. split; auto. intros e. rewrite in_app_iff, IHy. split.
    + intros [I|(c & z & I & E & J)]; [exists b, x; auto|exists c, z; auto].
    + intros (c & z & [<-|I] & E & J); [left; congruence|right; eauto].
Qed.

Section Tests.
Context (smatch : nat -> nat -> bool) (num : flag -> nat) (door : nat -> bool).

Lemma elements_ok t n e : In e (elements t n) <-> contains t n e.
Proof. destruct n, t; reflexivity. Qed.

Lemma do_block_in t s : forall fuel n, height n <= fuel ->
  exists l, do_block smatch num door fuel t s n = Some l /\
    forall e, In e l <-> skip_block smatch num t s (path n) = false /\
      exists x, beneath x n /\ contains t x e /\ skip_block smatch num t s (path x) = false /\ skip_element smatch num door t s e = false.
Proof.
  induction fuel as [|fuel IH]; intros n L. { destruct n; cbn in L; lia. }
  cbn [do_block]. destruct (skip_block smatch num t s (path n)) eqn:K.
  - exists []. split; auto. intros e. split; [intros []|intros [? _]; discriminate].
  - destruct (each_in (do_block smatch num door fuel t s) (get_blocks n)) as (r & E & IR).
    { intros b I. apply blocks_height in I. destruct (IH b) as (l & El & _); [lia|eauto]. }
    rewrite E. eexists. split; [reflexivity|]. intros e. rewrite in_app_iff, filter_In, elements_ok, negb_true_iff, IR. split.
    + intros [[I Q]|(b & x & I & Eb & J)].
      * split; auto. exists n. repeat split; auto. constructor.
      * apply blocks_height in I. destruct I as [Hb Wb]. destruct (IH b) as (l & El & Il); [lia|]. assert (l = x) as -> by congruence.
        apply Il in J. destruct J as (_ & y & W & J). split; auto. exists y. split; auto. now apply beneath_trans with b.
    + intros (_ & x & W & C & Q & Qe). apply beneath_cases in W. destruct W as [->|I]; [now left; split|right].
      pose proof (blocks_height x n I) as [Hx _]. destruct (IH x) as (l & El & Il); [lia|]. exists x, l. repeat split; auto.
      apply Il. split; auto. exists x. repeat split; auto. constructor.
Qed.

(** ** Resources *)
Lemma visible_write path n p' n' v : forall l,
  (exists r, In r (write_first smatch p' n' v l) /\ visible smatch path n r = true) <-> (exists r, In r l /\ visible smatch path n r = true).
Proof.
  induction l as [|r l IH]; [reflexivity|]. cbn [write_first]. destruct (visible smatch p' n' r).
  - split; intros (x & [<-|I] & V).
    + exists r. cbn. auto. + exists x. cbn. auto. + exists (RVal (v_name r) (v_scope r) v). cbn. auto. + exists x. cbn. auto.
  - split; intros (x & [<-|I] & V).
    + exists r. cbn. auto.
    + destruct (proj1 IH (ex_intro _ x (conj I V))) as (y & J & W). exists y. cbn. auto.
    + exists r. cbn. auto.
    + destruct (proj2 IH (ex_intro _ x (conj I V))) as (y & J & W). exists y. cbn. auto.
Qed.
Lemma visible_set ops path n :
  (exists r, In r (rdb_spec smatch ops) /\ visible smatch path n r = true) <-> exists scope v, In (DSet scope n v) ops /\ smatch scope path = true.
Proof.
  unfold rdb_spec. induction ops as [|o ops IH] using rev_ind.
  - split; [intros (r & [] & _)|intros (sc & v & [] & _)].
  - rewrite fold_left_app. cbn [fold_left]. destruct o as [sc m v|p m v]; cbn [rdb_spec1].
    + split.
      * intros (r & I & V). apply in_app_or in I. destruct I as [I|[<-|[]]].
        -- destruct (proj1 IH (ex_intro _ r (conj I V))) as (sc' & v' & J & W). exists sc', v'. split; auto. apply in_or_app. auto.
        -- unfold visible in V. cbn in V. apply andb_true_iff in V. destruct V as [V W]. apply Nat.eqb_eq in V. subst m.
           exists sc, v. split; auto. apply in_or_app. cbn. auto.
      * intros (sc' & v' & I & W). apply in_app_or in I. destruct I as [I|[I|[]]].
        -- destruct (proj2 IH (ex_intro _ sc' (ex_intro _ v' (conj I W)))) as (r & J & V). exists r. split; auto. apply in_or_app. auto.
        -- injection I as -> -> ->. exists (RVal n sc' v'). split; [apply in_or_app; cbn; auto|]. unfold visible. cbn. now rewrite Nat.eqb_refl, W.
    + rewrite visible_write, IH. split; intros (sc & v' & I & W); exists sc, v'; split; auto.
      * apply in_or_app. auto. * apply in_app_or in I. destruct I as [I|[I|[]]]; [auto|discriminate].
Qed.
Lemma found_set ops p f : found smatch num (rrun smatch (map rdb_rop ops)) p f = true <-> excluded smatch num ops [f] p.
Proof.
  unfold found. pose proof (C37_resource_db smatch ops p (num f)) as C. unfold read_by_name, rdb_read in C.
  transitivity (exists r, In r (rdb_spec smatch ops) /\ visible smatch p (num f) r = true).
  - destruct (get_by_name smatch (rrun smatch (map rdb_rop ops)) p (num f)), (find (visible smatch p (num f)) (rdb_spec smatch ops)) as [r|] eqn:F; cbn in C; try discriminate.
    + apply find_some in F. split; eauto.
    + split; [discriminate|]. intros (r & I & V). rewrite (find_none _ _ F r I) in V. discriminate.
  - rewrite visible_set. unfold excluded. split.
    + intros (sc & v & I & W). exists f, sc, v. cbn. auto.
    + intros (f' & sc & v & [<-|[]] & I & W). eauto.
Qed.
Lemma excluded_cons ops f fs p : excluded smatch num ops (f :: fs) p <-> excluded smatch num ops [f] p \/ excluded smatch num ops fs p.
Proof.
  unfold excluded. split.
  - intros (g & sc & v & [<-|I] & J & W); [left; exists f, sc, v; cbn; auto|right; eauto 6].
  - intros [(g & sc & v & [<-|[]] & J & W)|(g & sc & v & I & J & W)]; [exists f, sc, v; cbn; auto|exists g, sc, v; cbn; auto].
Qed.
Lemma excluded_nil ops p : ~ excluded smatch num ops [] p.
Proof. intros (g & sc & v & [] & _). Qed.
Lemma found_not ops p f : found smatch num (rrun smatch (map rdb_rop ops)) p f = false <-> ~ excluded smatch num ops [f] p.
Proof. rewrite <- found_set. destruct (found _ _ _ _ _); split; congruence. Qed.

Lemma mask_bit tests n : negb (Z.land tests (2 ^ Z.of_nat n) =? 0)%Z = Z.testbit tests (Z.of_nat n).
Proof.
  destruct (Z.testbit tests (Z.of_nat n)) eqn:T.
  - apply negb_true_iff, Z.eqb_neq. intros E. assert (X : Z.testbit (Z.land tests (2 ^ Z.of_nat n)) (Z.of_nat n) = true).
    { rewrite Z.land_spec, T, Z.pow2_bits_true by lia. reflexivity. } rewrite E, Z.testbit_0_l in X. discriminate.
  - apply negb_false_iff, Z.eqb_eq. apply Z.bits_inj'. intros i Hi. rewrite Z.land_spec, Z.testbit_0_l, Z.pow2_bits_eqb by lia.
    destruct (Z.eqb_spec (Z.of_nat n) i) as [<-|]; [now rewrite T|apply andb_false_r].
Qed.
End Tests.

(** * C226 *)
(** The built-in sequence starts each test at most once and in a fixed order, those asked
    for by the mask for which the model is not excluded; the memory walk is not stopped by
    NO_MEM_TESTS here. Nothing else in the mask has an effect, and nothing is started
    without a model. *)
Theorem C226_started : forall smatch num ops tests p,
  let s := rrun smatch (map rdb_rop ops) in
  StronglySorted (fun a b => (position a < position b)%Z) (body smatch num s tests (Some p)) /\
  (forall t, In t (body smatch num s tests (Some p)) <-> Z.testbit tests (position t) = true /\
     ~ excluded smatch num ops (match t with MemWalk => [NO_REG_TESTS; NO_MEM_WALK_TEST] | _ => documented t end) p) /\
  body smatch num s tests None = [].
Proof.
  intros smatch num ops tests p s. split; [|split; [|reflexivity]].
  - unfold body, start_if. repeat match goal with |- context [if ?b then [_] else []] => destruct b end; cbn [app];
      repeat (constructor; [|repeat (apply Forall_cons; [cbn; lia|]); apply Forall_nil]); constructor.
  - intros t. unfold body. pose proof (mask_bit tests) as MB.
    pose proof (MB 0%nat) as M0. pose proof (MB 1%nat) as M1. pose proof (MB 2%nat) as M2.
    pose proof (MB 3%nat) as M3. pose proof (MB 5%nat) as M5. cbn in M0, M1, M2, M3, M5.
    rewrite !in_app_iff. cbv zeta.
    assert (ST : forall b u, In t (start_if b u) <-> t = u /\ b = true).
    { intros b u. unfold start_if. destruct b; cbn; intuition congruence. }
    rewrite !ST, M0, M1, M2, M3, M5. clear MB M0 M1 M2 M3 M5 ST. unfold s.
    destruct t; cbn [position documented];
      repeat match goal with |- context [excluded smatch num ?o (?a :: ?b :: ?l) ?q] => rewrite (excluded_cons smatch num o a (b :: l) q) end;
      rewrite ?andb_true_iff, ?negb_true_iff, ?found_not; intuition discriminate.
Qed.
Print Assumptions C226_started.

(** Bit bash, register access and memory access follow the documented rule: a register or
    memory is tested by the built-in sequence exactly if the test is asked for and neither
    the model, nor the block it is in, nor it itself is excluded, and for the access tests it
    has a back door. Excluding a block in between is without effect. *)
Theorem C226_documented : forall smatch num door ops tests n fuel t e,
  height n <= fuel -> t <> HwReset -> t <> MemWalk ->
  let s := rrun smatch (map rdb_rop ops) in
  (exists l, In (t, Some l) (built_in smatch num door fuel s tests n) /\ In e l) <->
  Z.testbit tests (position t) = true /\ ~ excluded smatch num ops (documented t) (path n) /\
  exists x, beneath x n /\ contains t x e /\ ~ excluded smatch num ops (documented t) (path x) /\
    ~ excluded smatch num ops (documented t) e /\ (needs_door t = true -> door e = true).
Proof.
  intros smatch num door ops tests n fuel t e L N1 N2 s.
  pose proof (C226_started smatch num ops tests (path n)) as (_ & ST & _). fold s in ST.
  destruct (do_block_in smatch num door t s fuel n L) as (l & E & IL).
  assert (B : forall q, skip_block smatch num t s q = false <-> ~ excluded smatch num ops (documented t) q).
  { intros q. unfold s. destruct t; try congruence; cbn [skip_block documented]; unfold reg_test_off; cbn [fold_left orb];
      repeat match goal with |- context [excluded smatch num ?o (?a :: ?b :: ?l) ?q] => rewrite (excluded_cons smatch num o a (b :: l) q) end;
      rewrite ?orb_false_iff, ?found_not; tauto. }
  assert (Q : forall q, skip_element smatch num door t s q = false <-> ~ excluded smatch num ops (documented t) q /\ (needs_door t = true -> door q = true)).
  { intros q. unfold s. destruct t; try congruence; cbn [skip_element documented needs_door]; unfold reg_test_off; cbn [fold_left orb];
      repeat match goal with |- context [excluded smatch num ?o (?a :: ?b :: ?l) ?q] => rewrite (excluded_cons smatch num o a (b :: l) q) end;
      rewrite ?orb_false_iff, ?found_not, ?negb_false_iff; intuition congruence. }
  unfold built_in. split.
  - intros (l' & I & J). apply in_map_iff in I. destruct I as (t' & E' & I). apply filter_In in I. destruct I as [I _]. injection E' as -> E'. assert (l' = l) as -> by congruence.
    apply ST in I. apply IL in J. destruct J as (_ & x & W & C & K1 & K2). apply B in K1. apply Q in K2.
    destruct I as [I1 I2]. split; auto. split; [destruct t; congruence|]. exists x. tauto.
  - intros (T & X & x & W & C & K1 & K2 & D). exists l. split.
    + apply in_map_iff. exists t. split; [now rewrite E|]. apply filter_In. split; [|destruct t; congruence]. apply ST. split; auto. destruct t; congruence.
    + apply IL. split; [now apply B|]. exists x. repeat split; auto; [now apply B|now apply Q].
Qed.
Print Assumptions C226_documented.

(** The memory walk asks for NO_MEM_WALK_TEST only of the model and of the memories, and
    stops at blocks with NO_MEM_ACCESS_TEST. *)
Theorem C226_walk : forall smatch num door ops tests n fuel e,
  height n <= fuel ->
  let s := rrun smatch (map rdb_rop ops) in
  (exists l, In (MemWalk, Some l) (built_in smatch num door fuel s tests n) /\ In e l) <->
  Z.testbit tests (position MemWalk) = true /\
  ~ excluded smatch num ops [NO_REG_TESTS; NO_MEM_TESTS; NO_MEM_ACCESS_TEST; NO_MEM_WALK_TEST] (path n) /\
  exists x, beneath x n /\ contains MemWalk x e /\
    ~ excluded smatch num ops [NO_REG_TESTS; NO_MEM_TESTS; NO_MEM_ACCESS_TEST] (path x) /\
    ~ excluded smatch num ops (documented MemWalk) e.
Proof.
  intros smatch num door ops tests n fuel e L s.
  pose proof (C226_started smatch num ops tests (path n)) as (_ & ST & _). fold s in ST. specialize (ST MemWalk). cbn match in ST.
  destruct (do_block_in smatch num door MemWalk s fuel n L) as (l & E & IL).
  assert (B : forall q, skip_block smatch num MemWalk s q = false <-> ~ excluded smatch num ops [NO_REG_TESTS; NO_MEM_TESTS; NO_MEM_ACCESS_TEST] q).
  { intros q. unfold s. cbn [skip_block].
      repeat match goal with |- context [excluded smatch num ?o (?a :: ?b :: ?l) ?q] => rewrite (excluded_cons smatch num o a (b :: l) q) end;
      rewrite ?orb_false_iff, ?found_not; tauto. }
  assert (Q : forall q, skip_element smatch num door MemWalk s q = false <-> ~ excluded smatch num ops (documented MemWalk) q).
  { intros q. unfold s. cbn [skip_element documented].
      repeat match goal with |- context [excluded smatch num ?o (?a :: ?b :: ?l) ?q] => rewrite (excluded_cons smatch num o a (b :: l) q) end;
      rewrite ?orb_false_iff, ?found_not; tauto. }
  assert (C4 : ~ excluded smatch num ops [NO_REG_TESTS; NO_MEM_TESTS; NO_MEM_ACCESS_TEST; NO_MEM_WALK_TEST] (path n) <->
    ~ excluded smatch num ops [NO_REG_TESTS; NO_MEM_WALK_TEST] (path n) /\ ~ excluded smatch num ops [NO_REG_TESTS; NO_MEM_TESTS; NO_MEM_ACCESS_TEST] (path n)).
  { repeat match goal with |- context [excluded smatch num ?o (?a :: ?b :: ?l) ?q] => rewrite (excluded_cons smatch num o a (b :: l) q) end. tauto. }
  rewrite C4. unfold built_in. split.
  - intros (l' & I & J). apply in_map_iff in I. destruct I as (t' & E' & I). apply filter_In in I. destruct I as [I _]. injection E' as -> E'. assert (l' = l) as -> by congruence.
    apply ST in I. apply IL in J. destruct J as (K & x & W & C & K1 & K2). apply B in K, K1. apply Q in K2.
    destruct I as [I1 I2]. repeat split; auto. exists x. tauto.
  - intros (T & (X1 & X2) & x & W & C & K1 & K2). exists l. split.
    + apply in_map_iff. exists MemWalk. split; [now rewrite E|]. apply filter_In. split; auto. apply ST. auto.
    + apply IL. split; [now apply B|]. exists x. repeat split; auto; [now apply B|now apply Q].
Qed.
Print Assumptions C226_walk.

Definition number (f : flag) : nat :=
  match f with
  | NO_REG_TESTS => 0 | NO_REG_HW_RESET_TEST => 1 | NO_REG_BIT_BASH_TEST => 2 | NO_REG_ACCESS_TEST => 3
  | NO_MEM_TESTS => 4 | NO_MEM_ACCESS_TEST => 5 | NO_MEM_WALK_TEST => 6
  end.
(** So the documented rule fails for the memory walk: it walks the memory 11 of a block 10
    that has NO_MEM_WALK_TEST, and not that of a block that has NO_MEM_ACCESS_TEST only. *)
Theorem C226_walk_limit :
  let n := Node 1 [] [] [Node 10 [] [11] []] in
  let run ops := built_in Nat.eqb number (fun _ => true) 2 (rrun Nat.eqb (map rdb_rop ops)) 32 n in
  run [DSet 10 (number NO_MEM_WALK_TEST) 1] = [(MemWalk, Some [11])] /\
  run [DSet 10 (number NO_MEM_ACCESS_TEST) 1] = [(MemWalk, Some [])].
Proof. vm_compute. auto. Qed.
Print Assumptions C226_walk_limit.

(** Register 2 is in the model, 11 in block 10, 21 in block 20 within it. Register 11 is left
    out although the value set is 0; block 10 is left out, but not block 20. *)
Example C226_example :
  let n := Node 1 [2; 3] [4] [Node 10 [11] [12] [Node 20 [21] [22] []]] in
  let run ops tests := built_in Nat.eqb number (fun e => negb (Nat.eqb e 3)) 3 (rrun Nat.eqb (map rdb_rop ops)) tests n in
  height n = 3 /\
  body Nat.eqb number (rrun Nat.eqb []) (-1) (Some 1) = [HwReset; BitBash; RegAccess; MemAccess; MemWalk] /\
  run [] (-1)%Z = [(BitBash, Some [2; 3; 11; 21; 21]); (RegAccess, Some [2; 11; 21; 21]); (MemAccess, Some [4; 12; 22; 22]); (MemWalk, Some [4; 12; 22; 22])] /\
  run [DSet 11 0 0%Z; DSet 1 (number NO_MEM_TESTS) 1%Z] 46%Z = [(BitBash, Some [2; 3; 21; 21]); (RegAccess, Some [2; 21; 21]); (MemWalk, Some [])] /\
  run [DSet 10 0 1%Z] 2%Z = [(BitBash, Some [2; 3; 21])] /\ run [DSet 1 0 1%Z] (-1)%Z = [] /\ run [] 16%Z = [].
Proof. vm_compute. repeat split. Qed.
