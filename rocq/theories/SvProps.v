(** Properties C18-C20: helpers of sv.py. *)
From Coq Require Import ZArith List Bool Arith Lia Ascii ZifyBool ZifyNat.
From Verif Require Import Prelude PackerModel SvModel SvSpec SvProofs.
Import ListNotations.
Open Scope Z_scope.

(** C18 *)
Theorem C18_clog2 : forall value, exists k, clog2 (S (Z.to_nat value)) value = Some k /\
  0 <= k /\ value <= 2 ^ k /\ forall j, 0 <= j -> value <= 2 ^ j -> k <= j.
Proof. exact clog2_ok. Qed.
Print Assumptions C18_clog2.

(** Set a bit to 0 or 1, then read any bit. *)
Theorem C18_get_after_set : forall v idx b j, 0 <= idx -> 0 <= j -> b = 0 \/ b = 1 ->
  (do r <- set_bit v idx b; sv_get_bit r j) = (if j =? idx then Ok b else sv_get_bit v j).
Proof.
  intros v idx b j Hi Hj Hb. destruct (set_bit_spec v idx b Hi Hb) as (r & E & H).
  rewrite E. cbn [bind]. rewrite !get_bit_spec, H by auto.
  destruct (j =? idx); auto. destruct Hb as [->| ->]; reflexivity.
Qed.
Print Assumptions C18_get_after_set.

Theorem C18_get_after_clear : forall v idx j, 0 <= idx -> 0 <= j ->
  (do r <- clear_bit v idx; sv_get_bit r j) = (if j =? idx then Ok 0 else sv_get_bit v j).
Proof.
  intros v idx j Hi Hj. pose proof (C18_get_after_set v idx 0 j Hi Hj (or_introl eq_refl)) as H.
  exact H.
Qed.
Print Assumptions C18_get_after_clear.

Theorem C18_bad_arguments_raise : forall v idx b,
  idx < 0 \/ (b <> 0 /\ b <> 1) -> set_bit v idx b = Raise.
Proof.
  intros v idx b H. unfold set_bit, clear_bit.
  destruct (b =? 1) eqn:E1; [|destruct (b =? 0) eqn:E0]; destruct (idx <? 0) eqn:EI; auto; lia.
Qed.
Print Assumptions C18_bad_arguments_raise.

Theorem C18_vector_of_ones : forall w, 0 < w -> get_vector_of_ones w = Ok (2 ^ w - 1).
Proof. exact ones_ok. Qed.
Print Assumptions C18_vector_of_ones.

Example C18_example : clog2 10 9 = Some 4 /\ clog2 10 8 = Some 3 /\ set_bit 5 1 1 = Ok 7 /\
  set_bit 7 0 0 = Ok 6 /\ get_vector_of_ones 5 = Ok 31.
Proof. repeat split; reflexivity. Qed.

(** C19. Mixed with [try_get], a semaphore of one key hands the key to two
    processes and its count becomes negative. *)
Theorem C19_two_holders_limit :
  let r := srun 1 [STryGet 0 1; SGet 1 1; SResume] in
  snd r = [SGot 0%nat 1; SGot 1%nat 1] /\ scount (fst r) = -1.
Proof. split; reflexivity. Qed.
Print Assumptions C19_two_holders_limit.

(** Without [try_get], asking for several keys has the same effect. *)
Theorem C19_several_keys_limit :
  let r := srun 2 [SGet 0 1; SGet 1 2; SResume] in
  snd r = [SGot 0%nat 1; SGot 1%nat 2] /\ scount (fst r) = -1.
Proof. split; reflexivity. Qed.
Print Assumptions C19_several_keys_limit.

(** A process can stay blocked although keys are available: with two keys, both
    taken, two waiting processes and both keys put back, only one of the two
    gets a key. *)
Theorem C19_blocked_with_key_available_limit :
  let r := srun 2 [SGet 0 1; SGet 1 1; SResume; SGet 2 1; SGet 3 1; SPut 0 1; SPut 1 1; SResume;
                   SResume; SResume] in
  scount (fst r) = 1 /\ waiters (fst r) = [(3%nat, 1)] /\ granted (fst r) = None.
Proof. repeat split; reflexivity. Qed.
Print Assumptions C19_blocked_with_key_available_limit.

(** Whatever is called (any number of keys, [try_get] included), as long as
    puts are made only while at least that many keys are out: available plus
    held is the initial number. *)
Fixpoint puts_ok (s : sem) (tr : list sout) (ls : list slabel) : Prop :=
  match ls with
  | [] => True
  | l :: ls => (match l with SPut _ n => 0 < n <= all_held tr | _ => True end) /\
      puts_ok (fst (sstep s l)) (tr ++ snd (sstep s l)) ls
  end.
Theorem C19_accounting : forall (n : Z) (ls : list slabel), puts_ok (sem0 n) [] ls ->
  let (s, tr) := srun n ls in scount s + all_held tr = n.
Proof.
  intros n ls. unfold srun.
  assert (HG : forall s tr, max_count s = n -> scount s + all_held tr = n -> puts_ok s tr ls ->
    scount (fst (run_machine sstep s ls)) + all_held (tr ++ snd (run_machine sstep s ls)) = n).
  { induction ls as [|l ls IH]; intros s tr Hm Hs Hp; [cbn; now rewrite app_nil_r|]. destruct Hp as [Hl Hp]. cbn [run_machine].
    assert (H1 : max_count (fst (sstep s l)) = n /\ scount (fst (sstep s l)) + all_held (tr ++ snd (sstep s l)) = n).
    { rewrite all_held_app. destruct l as [p k|p k|p k|]; cbn [sstep].
      - destruct (k <? scount s); [|destruct (max_count s <? k); [|destruct (held s)]]; cbn; lia.
      - destruct (k <=? scount s); cbn; lia.
      - replace (scount s <? max_count s) with true by lia. destruct (locked s); [destruct (waiters s)|]; cbn; lia.
      - destruct (granted s) as [[p k]|]; cbn; lia. }
    destruct (sstep s l) as [s1 o]. cbn [fst snd] in *. destruct H1 as [H1 H2]. specialize (IH s1 (tr ++ o) H1 H2 Hp).
    destruct (run_machine sstep s1 ls) as [s2 o2]. cbn [fst snd] in *. now rewrite app_assoc. }
  intros Hp. specialize (HG (sem0 n) [] eq_refl ltac:(cbn; lia) Hp). destruct (run_machine sstep (sem0 n) ls). exact HG.
Qed.
Print Assumptions C19_accounting.
Example C19_accounting_example :
  puts_ok (sem0 3) [] [STryGet 0 2; SGet 1 3; SResume; SPut 0 2; SGet 2 2] /\ scount (fst (srun 3 [STryGet 0 2; SGet 1 3; SResume; SPut 0 2; SGet 2 2])) = 0.
Proof. split; [cbn; repeat split; lia|reflexivity]. Qed.

(** A put while no key is out is ignored: with puts of one key, whatever else is called (keys
    asked for are not negative), there are never more keys than initially. *)
Definition one_key_put (l : slabel) : Prop :=
  match l with SPut _ n => n = 1 | SGet _ n | STryGet _ n => 0 <= n | SResume => True end.
Theorem C19_never_more : forall (n : Z) (ls : list slabel), Forall one_key_put ls ->
  let s := fst (srun n ls) in
  scount s <= n /\ forall p k, n < k -> snd (sstep s (STryGet p k)) = [SFail p] /\ snd (sstep s (SGet p k)) = [SRaised p].
Proof.
  intros n ls F. cbn zeta.
  assert (I : forall s, max_count s = n -> scount s <= n -> (forall p k, granted s = Some (p, k) -> 0 <= k) -> (Forall (fun w => 0 <= snd w) (waiters s)) ->
    max_count (fst (run_machine sstep s ls)) = n /\ scount (fst (run_machine sstep s ls)) <= n).
  { induction F as [|l ls Hl F IH]; intros s M C G W; [now split|]. cbn [run_machine].
    assert (H1 : max_count (fst (sstep s l)) = n /\ scount (fst (sstep s l)) <= n /\ (forall p k, granted (fst (sstep s l)) = Some (p, k) -> 0 <= k) /\ Forall (fun w => 0 <= snd w) (waiters (fst (sstep s l)))).
    { destruct l as [p k|p k|p k|]; cbn [sstep one_key_put] in *.
      - destruct (k <? scount s); [|destruct (max_count s <? k); [|destruct (held s)]]; cbn [fst max_count scount granted waiters]; repeat split; auto; try lia.
        + apply Forall_app. split; auto.
        + intros p0 k0 E. injection E as <- <-. exact Hl.
      - destruct (k <=? scount s); cbn [fst max_count scount granted waiters]; repeat split; auto; lia.
      - subst k. destruct (Z.ltb_spec (scount s) (max_count s)); [|now repeat split].
        destruct (locked s); [destruct (waiters s) as [|[q j] ws] eqn:E|]; cbn [fst max_count scount granted waiters]; repeat split; auto; try lia.
        + intros p0 k0 Q. injection Q as <- <-. inversion W; auto.
        + now inversion W.
      - destruct (granted s) as [[p k]|] eqn:E; cbn [fst max_count scount granted waiters]; repeat split; auto; try discriminate.
        + specialize (G p k eq_refl). lia.
        + intros p k Q. rewrite E in Q. discriminate. }
    destruct (sstep s l) as [s1 o]. cbn [fst] in *. destruct H1 as (H1 & H2 & H3 & H4). specialize (IH s1 H1 H2 H3 H4).
    destruct (run_machine sstep s1 ls). exact IH. }
  destruct (I (sem0 n) eq_refl ltac:(cbn; lia) ltac:(discriminate) ltac:(constructor)) as [M C]. fold (srun n ls) in M, C. split; [exact C|].
  intros p k L. cbn [sstep]. rewrite M. replace (k <=? _) with false by lia. replace (k <? scount _) with false by lia. replace (n <? k) with true by lia. now split.
Qed.
Print Assumptions C19_never_more.
Example C19_never_more_example :
  Forall one_key_put [SGet 0 1; SPut 0 1; SPut 1 1; SPut 1 1; STryGet 2 2] /\ scount (fst (srun 3 [SGet 0 1; SPut 0 1; SPut 1 1; SPut 1 1; STryGet 2 2])) = 1.
Proof. split; [repeat constructor; cbn; lia|reflexivity]. Qed.
(** A put of several keys can make more than there were. *)
Theorem C19_put_several_limit : scount (fst (srun 2 [STryGet 0 1; SPut 0 5])) = 6.
Proof. reflexivity. Qed.
Print Assumptions C19_put_several_limit.

(** With single-key [get] and [put] only, any number of keys and processes, and
    puts made only while some key is out: after every schedule, keys are
    conserved, and no more are out than exist. *)
Theorem C19_conservation : forall (n : Z) (ls : list slabel),
  1 <= n -> run_ok (sem0 n) [] ls ->
  let (s, tr) := srun n ls in
  scount s + all_held tr = n /\ 0 <= scount s /\ 0 <= all_held tr <= n.
Proof.
  intros n ls Hn HR. pose proof (sinv_run n ls Hn _ _ HR (sinv0 n Hn)) as [M C F G W N P HH O].
  cbn [app] in *. unfold srun. destruct (run_machine sstep (sem0 n) ls) as [s tr].
  cbn [fst snd] in *. lia.
Qed.
Print Assumptions C19_conservation.

(** Mutual exclusion: a semaphore of one key. *)
Corollary C19_mutex : forall (ls : list slabel),
  run_ok (sem0 1) [] ls -> all_held (snd (srun 1 ls)) <= 1.
Proof.
  intros ls HR. pose proof (C19_conservation 1 ls) as H. destruct (srun 1 ls) as [s tr].
  cbn [snd]. apply H; auto. lia.
Qed.
Print Assumptions C19_mutex.

(** And in that use nobody waits while a key is free and nothing is pending. *)
Theorem C19_no_lost_wakeup : forall (ls : list slabel),
  run_ok (sem0 1) [] ls ->
  let (s, tr) := srun 1 ls in waiters s <> [] -> granted s = None -> scount s = 0.
Proof.
  intros ls HR. assert (H1 : 1 <= 1) by lia.
  pose proof (sinv_run 1 ls H1 _ _ HR (sinv0 1 H1)) as [M C F G W N P HH O].
  cbn [app] in *. unfold srun. destruct (run_machine sstep (sem0 1) ls) as [s tr].
  cbn [fst snd] in *. intros HW HG. apply O; auto. apply N; auto.
  destruct (held s); auto. destruct F as (_ & _ & _ & ?); auto.
Qed.
Print Assumptions C19_no_lost_wakeup.

Example C19_example :
  run_ok (sem0 1) [] [SGet 0 1; SResume; SGet 1 1; SGet 2 1; SPut 0 1; SResume; SPut 1 1; SResume] /\
  snd (srun 1 [SGet 0 1; SResume; SGet 1 1; SGet 2 1; SPut 0 1; SResume; SPut 1 1; SResume])
  = [SGot 0%nat 1; SPutDone 0%nat 1; SGot 1%nat 1; SPutDone 1%nat 1; SGot 2%nat 1].
Proof. split; [cbn; repeat split; lia|reflexivity]. Qed.

(** C20. Patterns are searched for anywhere in the name. *)
Open Scope char_scope.
Theorem C20_unanchored_limit :
  uvm_is_match ["t"; "o"; "p"] ["x"; "t"; "o"; "p"; "y"] = Some true /\
  ~ glob ["t"; "o"; "p"] ["x"; "t"; "o"; "p"; "y"].
Proof. split; [reflexivity|]. intros H. inversion H; congruence. Qed.
Print Assumptions C20_unanchored_limit.

(** What it decides, for patterns of plain characters, '*' and '?': whether some
    part of the name fits the pattern. *)
Theorem C20_match : forall p s, Forall plain p -> ~ slash_delimited p ->
  exists b, uvm_is_match p s = Some b /\ (b = true <-> exists m, part_of m s /\ glob p m).
Proof.
  intros p s HP HS. rewrite is_match_ok by auto. eexists. split; [reflexivity|]. apply search_glob.
Qed.
Print Assumptions C20_match.

(** A name that fits is never rejected. *)
Theorem C20_no_false_negative : forall p s, Forall plain p -> ~ slash_delimited p ->
  glob p s -> uvm_is_match p s = Some true.
Proof.
  intros p s HP HS HG. rewrite is_match_ok by auto. f_equal. apply search_glob.
  exists s. split; auto. exists [], []. now rewrite app_nil_r.
Qed.
Print Assumptions C20_no_false_negative.

(** Patterns that start and end with '*' are decided exactly. *)
Theorem C20_starred : forall p s, Forall plain p ->
  uvm_is_match ("*" :: p ++ ["*"]) s = Some true <-> glob ("*" :: p ++ ["*"]) s.
Proof.
  intros p s HP.
  assert (HF : Forall plain ("*" :: p ++ ["*"])).
  { constructor; [unfold plain; cbn; intuition discriminate|]. apply Forall_app. split; auto. constructor; auto.
    unfold plain; cbn; intuition discriminate. }
  assert (HS : ~ slash_delimited ("*" :: p ++ ["*"])) by (intros (m & E & _); discriminate).
  split.
  - rewrite is_match_ok by auto. intros H. assert (search (glob_items ("*" :: p ++ ["*"])) s = true) as H2 by congruence. clear H.
    apply search_glob in H2. rename H2 into H.
    destruct H as (m & (l & r & ->) & HG). apply glob_star_any.
    assert (HE : forall q m, glob (q ++ ["*"]) m -> glob (q ++ ["*"]) (m ++ r)).
    { clear. intros q m H. remember (q ++ ["*"]) as pp. revert q Heqpp.
      induction H; intros q E.
      - destruct q; discriminate.
      - destruct q as [|x q].
        + injection E as ->. inversion H; subst. cbn. clear.
          induction r; [repeat constructor|now apply G_star_eat].
        + injection E as <- ->. cbn. apply G_star_skip. now apply (IHglob q).
      - cbn. apply G_star_eat. now apply (IHglob q).
      - destruct q as [|x q]; [discriminate|]. injection E as <- ->. cbn. apply G_quest. now apply (IHglob q).
      - destruct q as [|x q]; [injection E as -> _; congruence|]. injection E as <- ->. cbn.
        apply G_char; auto. now apply (IHglob q). }
    apply (HE ("*" :: p)). exact HG.
  - intros HG. apply C20_no_false_negative; auto.
Qed.
Print Assumptions C20_starred.

Example C20_example :
  uvm_is_match ["*"; "."; "a"; "?"; "*"] ["t"; "."; "a"; "1"; "."; "x"] = Some true /\
  uvm_is_match ["*"; "."; "a"; "?"; "*"] ["t"; "."; "b"; "1"; "."; "x"] = Some false.
Proof. split; reflexivity. Qed.
