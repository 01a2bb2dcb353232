From Coq Require Import ZArith List Bool Arith Lia Ascii ZifyBool ZifyNat.
From Verif Require Import Prelude PackerModel PackerProofs SvModel SvSpec.
Import ListNotations.
Open Scope Z_scope.

(** ** clog2 *)
Lemma clog2_loop_ok : forall fuel v r, 0 <= v -> v < 2 ^ Z.of_nat fuel ->
  exists k, clog2_loop (S fuel) v r = Some (r + k) /\ 0 <= k /\ v < 2 ^ k /\ (forall j, 0 <= j -> v < 2 ^ j -> k <= j).
Proof.
  induction fuel as [|fuel IH]; intros v r Hv Hf.
  - change (2 ^ Z.of_nat 0) with 1 in Hf. assert (v = 0) as -> by lia. exists 0. cbn. rewrite Z.add_0_r.
    repeat split; auto; lia.
  - assert (HD : clog2_loop (S (S fuel)) v r =
       if 0 <? v then clog2_loop (S fuel) (Z.shiftr v 1) (r + 1) else Some r) by reflexivity.
    rewrite HD. clear HD. destruct (0 <? v) eqn:E.
    + destruct (IH (Z.shiftr v 1) (r + 1)) as (k & E2 & Hk0 & Hk1 & Hk2).
      * apply Z.shiftr_nonneg. lia.
      * rewrite Z.shiftr_div_pow2 by lia. apply Z.div_lt_upper_bound; [lia|].
        rewrite Nat2Z.inj_succ, Z.pow_succ_r in Hf by lia. change (2 ^ 1) with 2. lia.
      * exists (k + 1). rewrite E2. split; [f_equal; lia|]. split; [lia|].
        rewrite Z.shiftr_div_pow2 in * by lia. change (2 ^ 1) with 2 in *. split.
        -- rewrite Z.pow_add_r by lia. change (2 ^ 1) with 2.
           pose proof (Z.div_mod v 2). pose proof (Z.mod_pos_bound v 2). lia.
        -- intros j Hj Hvj. destruct (Z.eq_dec j 0) as [->|]; [change (2 ^ 0) with 1 in Hvj; lia|].
           specialize (Hk2 (j - 1)).
           assert (v / 2 < 2 ^ (j - 1)).
           { apply Z.div_lt_upper_bound; [lia|]. replace j with (Z.succ (j - 1)) in Hvj by lia.
             rewrite Z.pow_succ_r in Hvj by lia. lia. }
           lia.
    + assert (v = 0) as -> by lia. exists 0. rewrite Z.add_0_r. repeat split; auto; lia.
Qed.

Lemma pow2_gt n : Z.of_nat n < 2 ^ Z.of_nat n.
Proof. apply Z.pow_gt_lin_r; lia. Qed.

Lemma clog2_ok value : exists k, clog2 (S (Z.to_nat value)) value = Some k /\
  0 <= k /\ value <= 2 ^ k /\ forall j, 0 <= j -> value <= 2 ^ j -> k <= j.
Proof.
  unfold clog2. destruct (Z.le_gt_cases value 0).
  - exists 0. cbn. replace (0 <? value - 1) with false by lia. repeat split; auto; try lia.
  - destruct (clog2_loop_ok (Z.to_nat value) (value - 1) 0) as (k & E & H1 & H2 & H3).
    + lia.
    + pose proof (pow2_gt (Z.to_nat value)). lia.
    + exists k. rewrite E. split; [f_equal; lia|]. split; [auto|]. split; [lia|].
      intros j Hj Hv. apply H3; auto. lia.
Qed.

(** ** bits *)
Lemma get_bit_spec v idx : 0 <= idx -> sv_get_bit v idx = Ok (Z.b2z (Z.testbit v idx)).
Proof.
  intros H. unfold sv_get_bit. replace (idx <? 0) with false by lia. f_equal.
  change 1 with (Z.ones 1). rewrite Z.land_ones by lia. rewrite Z.shiftr_div_pow2 by auto.
  symmetry. now apply Z.testbit_spec'.
Qed.

Lemma set_bit_spec v idx b : 0 <= idx -> b = 0 \/ b = 1 ->
  exists r, set_bit v idx b = Ok r /\ forall j, 0 <= j ->
    Z.testbit r j = if j =? idx then (b =? 1) else Z.testbit v j.
Proof.
  intros Hi Hb. unfold set_bit, clear_bit. replace (idx <? 0) with false by lia.
  destruct Hb as [->| ->]; cbn [Z.eqb Pos.eqb].
  - eexists. split; [reflexivity|]. intros j Hj. rewrite Z.land_spec, Z.lnot_spec, Z.shiftl_1_l by auto.
    rewrite Z.pow2_bits_eqb by auto. rewrite (Z.eqb_sym idx j).
    destruct (j =? idx); cbn; [apply andb_false_r|apply andb_true_r].
  - eexists. split; [reflexivity|]. intros j Hj. rewrite Z.lor_spec, Z.shiftl_1_l.
    rewrite Z.pow2_bits_eqb by auto. rewrite (Z.eqb_sym idx j).
    destruct (j =? idx); cbn; [apply orb_true_r|apply orb_false_r].
Qed.

Lemma fold_ones n : forall acc, fold_left (fun acc d => 2 * acc + d) (repeat 1 n) acc
  = acc * 2 ^ Z.of_nat n + (2 ^ Z.of_nat n - 1).
Proof.
  induction n as [|n IH]; intros acc; cbn [repeat fold_left].
  - change (2 ^ Z.of_nat 0) with 1. lia.
  - rewrite IH. rewrite Nat2Z.inj_succ, Z.pow_succ_r by lia. lia.
Qed.

Lemma ones_ok w : 0 < w -> get_vector_of_ones w = Ok (2 ^ w - 1).
Proof.
  intros H. unfold get_vector_of_ones, parse2, ones_str.
  pose proof (fold_ones (Z.to_nat w) 0) as HF.
  destruct (repeat 1 (Z.to_nat w)) eqn:E.
  - apply (f_equal (@length Z)) in E. rewrite repeat_length in E. cbn in E. lia.
  - rewrite HF. f_equal. rewrite Z2Nat.id by lia. lia.
Qed.

(** ** semaphore *)
Definition unit_label (l : slabel) : Prop :=
  match l with SGet _ n | SPut _ n => n = 1 | STryGet _ _ => False | SResume => True end.

Record SInv (m : Z) (s : sem) (tr : list sout) : Prop := {
  si_max : max_count s = m;
  si_cons : scount s + all_held tr = m;
  si_free : held s = false -> 1 <= scount s /\ granted s = None /\ locked s = false /\ waiters s = [];
  si_granted : forall w, granted s = Some w -> snd w = 1 /\ 1 <= scount s /\ held s = true /\ locked s = false;
  si_wait : Forall (fun w => snd w = 1) (waiters s);
  si_none : held s = true -> granted s = None -> locked s = true;
  si_pos : 0 <= scount s;
  si_held : 0 <= all_held tr;
  si_one : m = 1 -> locked s = true -> scount s = 0
}.

Lemma all_held_app a b : all_held (a ++ b) = all_held a + all_held b.
Proof. induction a as [|[]]; cbn; lia. Qed.

Lemma sinv_step m s tr l : 1 <= m -> unit_label l -> (match l with SPut _ _ => 0 < all_held tr | _ => True end) ->
  SInv m s tr -> SInv m (fst (sstep s l)) (tr ++ snd (sstep s l)).
Proof.
  intros Hm HU HP [M C F G W N P HH O]. destruct l as [p n|p n|p n|]; cbn [sstep unit_label] in *.
  - subst n. destruct (1 <? scount s) eqn:E; [|destruct (max_count s <? 1) eqn:E2; [|destruct (held s) eqn:EH]];
      cbn [fst snd]; constructor; cbn [max_count scount locked held granted waiters];
      rewrite ?all_held_app; cbn [all_held]; auto; try lia; try congruence;
      try (intros w Hw; try injection Hw as <-; cbn [snd];
           try (destruct (G w Hw) as (? & ? & ? & ?)); try (destruct (F eq_refl) as (? & ? & ? & ?));
           repeat split; auto; lia);
      try (intros H; destruct (F H) as (? & ? & ? & ?); repeat split; auto; lia);
      try (apply Forall_app; split; auto);
      try (intros H1 H2; specialize (O H1 H2); lia).
  - easy.
  - subst n. assert (HC : scount s < max_count s) by lia.
    replace (scount s <? max_count s) with true by lia.
    destruct (locked s) eqn:EL; [destruct (waiters s) as [|w ws] eqn:EW|];
      cbn [fst snd]; constructor; cbn [max_count scount locked held granted waiters];
      rewrite ?all_held_app; cbn [all_held]; auto; try lia; try congruence.
    + intros _. repeat split; auto; try lia.
      destruct (granted s) eqn:EG; auto. destruct (G p0 eq_refl) as (_ & _ & _ & ?). congruence.
    + intros w0 [= <-]. inversion W; subst. repeat split; auto; lia.
    + inversion W; auto.
    + intros H. destruct (F H) as (? & ? & ? & ?). repeat split; auto; lia.
  - destruct (granted s) as [[p n]|] eqn:EG; cbn [fst snd].
    + destruct (G _ eq_refl) as (H1 & H2 & H3 & H4). cbn in H1. subst n.
      constructor; cbn [max_count scount locked held granted waiters];
        rewrite ?all_held_app; cbn [all_held]; auto; try lia; try congruence.
    + rewrite app_nil_r. constructor; rewrite ?EG; auto; try congruence.
Qed.

(** Runs in which a put is only made while keys are held. *)
Fixpoint run_ok (s : sem) (tr : list sout) (ls : list slabel) : Prop :=
  match ls with
  | [] => True
  | l :: ls => unit_label l /\ (match l with SPut _ _ => 0 < all_held tr | _ => True end) /\
      run_ok (fst (sstep s l)) (tr ++ snd (sstep s l)) ls
  end.

Lemma sinv_run m ls : 1 <= m -> forall s tr, run_ok s tr ls -> SInv m s tr ->
  SInv m (fst (run_machine sstep s ls)) (tr ++ snd (run_machine sstep s ls)).
Proof.
  intros Hm. induction ls as [|l ls IH]; intros s tr HR HI; cbn [run_machine].
  - cbn. now rewrite app_nil_r.
  - destruct HR as (HU & HP & HR). pose proof (sinv_step m s tr l Hm HU HP HI) as HI'.
    destruct (sstep s l) as [s1 o1]. cbn [fst snd] in *. specialize (IH _ _ HR HI').
    destruct (run_machine sstep s1 ls). cbn [fst snd] in *. now rewrite app_assoc.
Qed.

Lemma sinv0 m : 1 <= m -> SInv m (sem0 m) [].
Proof. intros H. constructor; cbn; auto; try lia; try congruence. Qed.

(** ** globs *)
Fixpoint match_any (l : list item) (s : str) : bool :=
  match_here l s || match s with _ :: s => match_any l s | [] => false end.

Lemma match_star l s : match_here (AnySeq :: l) s = match_any l s.
Proof. cbn. induction s as [|c s IH]; cbn [match_any]; auto. now rewrite IH. Qed.

(** Items of a glob *)
Fixpoint glob_items (p : str) : list item :=
  match p with
  | [] => []
  | c :: p => (if Ascii.eqb c "*" then AnySeq else if Ascii.eqb c "?" then AnyChar else Lit c) :: glob_items p
  end.

Lemma match_any_ex l s : match_any l s = true <-> exists a b, s = a ++ b /\ match_here l b = true.
Proof.
  induction s as [|c s IH].
  - cbn. rewrite orb_false_r. split.
    + intros H. exists [], []. auto.
    + intros (a & b & E & H). destruct a; [|discriminate]. cbn in E. now subst.
  - cbn [match_any]. rewrite orb_true_iff, IH. split.
    + intros [H|(a & b & -> & H)]; [exists [], (c :: s)|exists (c :: a), b]; auto.
    + intros (a & b & E & H). destruct a as [|x a]; cbn in E.
      * subst. now left.
      * injection E as -> ->. right. now exists a, b.
Qed.

Lemma search_any l s : search l s = match_any l s.
Proof. induction s as [|c s IH]; cbn; try rewrite IH; auto. Qed.

Lemma glob_star_any p a s : glob ("*"%char :: p) s -> glob ("*"%char :: p) (a ++ s).
Proof. intros H. induction a; cbn; auto. apply G_star_eat. auto. Qed.

Lemma glob_star_inv p s : glob ("*"%char :: p) s -> exists a b, s = a ++ b /\ glob p b.
Proof.
  intros H. remember ("*"%char :: p) as q. revert Heqq.
  induction H; intros E; try discriminate; injection E as ?; subst.
  - now exists [], s.
  - destruct (IHglob eq_refl) as (a & b & -> & HG). exists (c :: a), b. auto.
  - congruence.
Qed.

Lemma match_here_glob p : forall s, match_here (glob_items p) s = true <-> exists a b, s = a ++ b /\ glob p a.
Proof.
  induction p as [|c p IH]; intros s; cbn [glob_items].
  - cbn. split; auto. intros _. exists [], s. split; auto. constructor.
  - destruct (Ascii.eqb_spec c "*"); [|destruct (Ascii.eqb_spec c "?")].
    + subst. rewrite match_star, match_any_ex. split.
      * intros (a & b & -> & H). apply IH in H. destruct H as (a' & b' & -> & HG).
        exists (a ++ a'), b'. split; [now rewrite app_assoc|]. apply glob_star_any. now constructor.
      * intros (a & b & -> & HG). apply glob_star_inv in HG. destruct HG as (x & y & -> & HG).
        exists x, (y ++ b). split; [now rewrite app_assoc|]. apply IH. now exists y, b.
    + subst. cbn [match_here]. destruct s as [|x s].
      * split; [discriminate|]. intros (a & b & E & HG). destruct a; [|discriminate]. inversion HG.
      * rewrite IH. split.
        -- intros (a & b & -> & HG). exists (x :: a), b. split; auto. now constructor.
        -- intros (a & b & E & HG). inversion HG; subst; try congruence. cbn in E. injection E as -> ->.
           eauto.
    + cbn [match_here]. destruct s as [|x s].
      * split; [discriminate|]. intros (a & b & E & HG). destruct a; [|discriminate]. inversion HG; subst; congruence.
      * rewrite andb_true_iff, IH. rewrite Ascii.eqb_eq. split.
        -- intros [-> (a & b & -> & HG)]. exists (c :: a), b. split; auto. now constructor.
        -- intros (a & b & E & HG). inversion HG; subst; try congruence. cbn in E. injection E as -> ->.
           eauto.
Qed.

Lemma search_glob p s : search (glob_items p) s = true <-> exists m, part_of m s /\ glob p m.
Proof.
  rewrite search_any, match_any_ex. split.
  - intros (a & b & -> & H). apply match_here_glob in H. destruct H as (m & r & -> & HG).
    exists m. split; auto. now exists a, r.
  - intros (m & (l & r & ->) & HG). exists l, (m ++ r). split; auto. apply match_here_glob. now exists m, r.
Qed.

(** The translation followed by regex parsing gives the glob items. *)
Definition tr1 (c : ascii) : str :=
  (if Ascii.eqb c "." then ["\"; "."]
   else if Ascii.eqb c "*" then ["."; "*"]
   else if Ascii.eqb c "[" then ["\"; "["]
   else if Ascii.eqb c "]" then ["\"; "]"]
   else if Ascii.eqb c "?" then ["."]
   else [c])%char.

Lemma replace_flat c by_ (f : ascii -> str) s :
  replace_ch c by_ (flat_map f s) = flat_map (fun x => replace_ch c by_ (f x)) s.
Proof.
  induction s as [|x s IH]; auto. cbn [flat_map]. unfold replace_ch in *.
  rewrite flat_map_app. now f_equal.
Qed.

Open Scope char_scope.
Lemma translate s :
  replace_ch "?" ["."] (replace_ch "]" ["\"; "]"] (replace_ch "[" ["\"; "["]
    (replace_ch "*" ["."; "*"] (replace_ch "." ["\"; "."] s)))) = flat_map tr1 s.
Close Scope char_scope.
Proof.
  unfold replace_ch at 5. rewrite !replace_flat. apply flat_map_ext. intros c.
  destruct c as [[] [] [] [] [] [] [] []]; reflexivity.
Qed.

Lemma parse_items : forall p, Forall plain p -> parse_re (flat_map tr1 p) = Some (glob_items p).
Proof.
  induction p as [|c p IH]; intros HF; auto. inversion HF as [|? ? Hc HF']; subst.
  specialize (IH HF'). cbn [flat_map glob_items].
  destruct (Ascii.eqb_spec c "."); [subst; cbn; now rewrite IH|].
  destruct (Ascii.eqb_spec c "*"); [subst; cbn; now rewrite IH|].
  destruct (Ascii.eqb_spec c "["); [subst; cbn; now rewrite IH|].
  destruct (Ascii.eqb_spec c "]"); [subst; cbn; now rewrite IH|].
  destruct (Ascii.eqb_spec c "?").
  - subst. assert (HN : forall r, flat_map tr1 p <> "*"%char :: r).
    { intros r E. destruct p as [|d p]; [discriminate|]. cbn [flat_map] in E. unfold tr1 in E.
      destruct (Ascii.eqb_spec d "."); [discriminate|].
      destruct (Ascii.eqb_spec d "*"); [discriminate|].
      destruct (Ascii.eqb_spec d "["); [discriminate|].
      destruct (Ascii.eqb_spec d "]"); [discriminate|].
      destruct (Ascii.eqb_spec d "?"); [discriminate|]. injection E as E _. congruence. }
    change (tr1 "?"%char) with ["."%char]. cbn [app].
    assert (HX : parse_re ("."%char :: flat_map tr1 p) =
       match parse_re (flat_map tr1 p) with Some l => Some (AnyChar :: l) | None => None end).
    { cbn [parse_re]. destruct (flat_map tr1 p) as [|d r] eqn:E; auto.
      destruct d as [[] [] [] [] [] [] [] []]; auto. exfalso. now apply (HN r). }
    rewrite HX, IH. reflexivity.
  - assert (HT : tr1 c = [c]).
    { unfold tr1. destruct (Ascii.eqb_spec c "."); [congruence|]. destruct (Ascii.eqb_spec c "*"); [congruence|].
      destruct (Ascii.eqb_spec c "["); [congruence|]. destruct (Ascii.eqb_spec c "]"); [congruence|].
      destruct (Ascii.eqb_spec c "?"); [congruence|]. reflexivity. }
    rewrite HT. cbn [app].
    assert (HS : special c = false).
    { unfold special. apply not_true_iff_false. intros H. apply existsb_exists in H.
      destruct H as (x & Hx & E). apply Ascii.eqb_eq in E. subst x. unfold plain in Hc. cbn in *. intuition. }
    assert (HP : parse_re (c :: flat_map tr1 p) =
      if special c then None else match parse_re (flat_map tr1 p) with Some l => Some (Lit c :: l) | None => None end).
    { destruct c as [[] [] [] [] [] [] [] []]; try reflexivity; cbn in HS; discriminate. }
    rewrite HP, HS, IH. reflexivity.
Qed.

Lemma is_match_ok p s : Forall plain p -> ~ slash_delimited p ->
  uvm_is_match p s = Some (search (glob_items p) s).
Proof.
  intros HF HS. unfold uvm_is_match, glob_to_re. destruct p as [|c p]; auto.
  destruct (Ascii.eqb_spec c "/"); cbn [andb].
  - destruct (Ascii.eqb_spec (last (c :: p) " "%char) "/").
    + exfalso. apply HS. exists p. subst. auto.
    + rewrite translate, parse_items by auto. reflexivity.
  - rewrite translate, parse_items by auto. reflexivity.
Qed.
