(** C67, C94-C96: string helpers. *)
From Coq Require Import ZArith List Bool Arith Lia.
From Verif Require Import MiscModel.
Import ListNotations.
Open Scope Z_scope.

(** ** C67 *)
(** Big-endian bytes. *)
Definition bytes_value (bs : list Z) : Z := fold_left (fun a b => 256 * a + b) bs 0.
Definition bytes (bs : list Z) : Prop := Forall (fun b => 0 <= b < 256) bs.

Lemma lor_add x k b : 0 <= k -> 0 <= b < 2 ^ k -> Z.lor (Z.shiftl x k) b = x * 2 ^ k + b.
Proof.
  intros Hk Hb. rewrite Z.shiftl_mul_pow2 by lia. rewrite <- Z.lxor_lor.
  - symmetry. apply Z.add_nocarry_lxor. apply Z.bits_inj'. intros n Hn. rewrite Z.land_spec, Z.bits_0.
    destruct (Z.lt_ge_cases n k) as [H|H].
    + rewrite Z.mul_pow2_bits_low by lia. reflexivity.
    + assert (E : Z.testbit b n = false).
      { destruct (Z.eq_dec b 0) as [->|Nb]; [apply Z.bits_0|]. apply Z.bits_above_log2; [lia|].
        apply Z.log2_lt_pow2; [lia|]. apply Z.lt_le_trans with (2 ^ k); [lia|]. apply Z.pow_le_mono_r; lia. }
      rewrite E. apply andb_false_r.
  - apply Z.bits_inj'. intros n Hn. rewrite Z.land_spec, Z.bits_0.
    destruct (Z.lt_ge_cases n k) as [H|H].
    + rewrite Z.mul_pow2_bits_low by lia. reflexivity.
    + assert (E : Z.testbit b n = false).
      { destruct (Z.eq_dec b 0) as [->|Nb]; [apply Z.bits_0|]. apply Z.bits_above_log2; [lia|].
        apply Z.log2_lt_pow2; [lia|]. apply Z.lt_le_trans with (2 ^ k); [lia|]. apply Z.pow_le_mono_r; lia. }
      rewrite E. apply andb_false_r.
Qed.

Theorem C67_two bs : bytes bs -> (length bs <= 2)%nat -> string_to_bits bs = bytes_value bs.
Proof.
  intros HB HL. destruct bs as [|a [|b [|c bs]]]; cbn in HL; try lia.
  - reflexivity.
  - unfold string_to_bits, bytes_value. cbn [stb fold_left]. rewrite Z.shiftl_0_l, Z.lor_0_l. lia.
  - inversion HB as [|? ? Ha HB']; subst. inversion HB' as [|? ? Hb _]; subst.
    unfold string_to_bits, bytes_value. cbn [stb fold_left]. rewrite Z.shiftl_0_l, Z.lor_0_l.
    change (0 + 8) with 8. rewrite lor_add by (change (2 ^ 8) with 256; lia). change (2 ^ 8) with 256. lia.
Qed.
Print Assumptions C67_two.

(** Every longer string whose first two characters are not both NUL comes out too
    large: gaps of zero bytes are left between the characters. *)
Lemma stb_eq bs : forall r s, bytes bs -> 8 <= s -> 0 <= r -> stb r s bs >= fold_left (fun a b => 256 * a + b) bs r.
Proof.
  induction bs as [|b bs IH]; intros r s HB Hs Hr; cbn [stb fold_left]; [lia|].
  inversion HB as [|? ? Hb HB']; subst.
  assert (H2 : 256 <= 2 ^ s) by (change 256 with (2 ^ 8); apply Z.pow_le_mono_r; lia).
  rewrite lor_add by lia. specialize (IH (r * 2 ^ s + b) (s + 8) HB' ltac:(lia) ltac:(nia)).
  assert (HM : forall l x y, x <= y -> fold_left (fun a b => 256 * a + b) l x <= fold_left (fun a b => 256 * a + b) l y).
  { clear. induction l as [|c l IH]; intros x y H; cbn [fold_left]; [assumption|]. apply IH. lia. }
  specialize (HM bs (256 * r + b) (r * 2 ^ s + b) ltac:(nia)). lia.
Qed.
Theorem C67_long a b c bs : bytes (a :: b :: c :: bs) -> 0 < a \/ 0 < b ->
  string_to_bits (a :: b :: c :: bs) > bytes_value (a :: b :: c :: bs).
Proof.
  intros HB Hab. inversion HB as [|? ? Ha HB1]; subst. inversion HB1 as [|? ? Hb HB2]; subst.
  inversion HB2 as [|? ? Hc HB3]; subst.
  unfold string_to_bits, bytes_value. cbn [stb fold_left]. rewrite Z.shiftl_0_l, Z.lor_0_l.
  change (0 + 8) with 8. change (8 + 8) with 16. change (16 + 8) with 24.
  rewrite (lor_add a 8 b) by (change (2 ^ 8) with 256; lia). change (2 ^ 8) with 256.
  rewrite (lor_add (a * 256 + b) 16 c) by (change (2 ^ 16) with 65536; lia). change (2 ^ 16) with 65536.
  pose proof (stb_eq bs ((a * 256 + b) * 65536 + c) 24 HB3 ltac:(lia) ltac:(nia)) as H.
  assert (HM : forall l x y, x < y -> fold_left (fun a b => 256 * a + b) l x < fold_left (fun a b => 256 * a + b) l y).
  { clear. induction l as [|d l IH]; intros x y H; cbn [fold_left]; [assumption|]. apply IH. lia. }
  specialize (HM bs (256 * (256 * (256 * 0 + a) + b) + c) ((a * 256 + b) * 65536 + c) ltac:(nia)). lia.
Qed.
Print Assumptions C67_long.

Example C67_example :
  string_to_bits [97; 98] = 97 * 256 + 98 /\ string_to_bits [97; 98; 99] = 97 * 2 ^ 24 + 98 * 2 ^ 16 + 99.
Proof. split; reflexivity. Qed.

(** ** C94: uvm_leaf_scope *)
Local Open Scope nat_scope.
Lemma scan_eq sep bm c x y r b : scan sep bm (c :: x :: y :: r) b =
  if (match bm with Some m => Nat.eqb c m | None => false end) then scan sep bm (x :: y :: r) (b + 1)
  else if Nat.eqb c sep
  then if (b - 1 =? 0)%Z || (match bm with None => true | _ => false end) then length (x :: y :: r)
       else scan sep bm (x :: y :: r) (b - 1)
  else scan sep bm (x :: y :: r) b.
Proof. reflexivity. Qed.
Lemma scan_skip_none sep l : forall r b, ~ In sep l -> 1 < length r ->
  scan sep None (l ++ r) b = scan sep None r b.
Proof.
  induction l as [|c l IH]; intros r b HN HL; [reflexivity|]. cbn [app].
  assert (HC : Nat.eqb c sep = false) by (apply Nat.eqb_neq; intros ->; apply HN; now left).
  assert (HE : exists x y z, l ++ r = x :: y :: z).
  { destruct r as [|x [|y z]]; cbn in HL; try lia. destruct l as [|x' [|y' z']]; cbn; eauto. }
  destruct HE as (x & y & z & HE). cbn [scan]. rewrite HC, HE. rewrite <- HE.
  apply IH; [|assumption]. intros H. apply HN. now right.
Qed.
Lemma scan_none_hit sep x r b : r <> [] -> scan sep None (sep :: x :: r) b = length (x :: r).
Proof. intros Hr. cbn [scan]. rewrite Nat.eqb_refl, orb_true_r. reflexivity. Qed.
Lemma scan_none_hit1 sep x b : scan sep None [sep; x] b = 1.
Proof. cbn [scan]. rewrite Nat.eqb_refl, orb_true_r. reflexivity. Qed.

Theorem C94_leaf pre leaf : pre <> [] -> ~ In dot leaf ->
  leaf_scope (pre ++ dot :: leaf) dot = RStr leaf.
Proof.
  intros Hp Hl. unfold leaf_scope, dot in *. cbn [bracket_match].
  assert (HS : search 46 (pre ++ 46 :: leaf) = Some true).
  { unfold search. f_equal. apply existsb_exists. exists 46. split; [|apply Nat.eqb_refl].
    apply in_app_iff. right. now left. }
  rewrite HS.
  assert (HX : scan 46 None (rev (pre ++ 46 :: leaf)) 0%Z = length pre).
  { rewrite rev_app_distr. cbn [rev]. rewrite <- app_assoc. cbn [app].
    destruct (exists_last Hp) as (p' & x & ->). rewrite rev_app_distr. cbn [rev app].
    rewrite scan_skip_none; [|now rewrite <- in_rev|cbn; lia].
    cbn [scan]. rewrite Nat.eqb_refl, orb_true_r. cbn [length]. rewrite rev_length, app_length. cbn. lia. }
  rewrite HX. destruct (length pre) eqn:EL; [destruct pre; [contradiction|discriminate]|].
  rewrite Nat.eqb_refl, <- EL. f_equal. unfold slice.
  rewrite skipn_app, skipn_all2 by lia. replace (length pre + 1 - length pre) with 1 by lia. cbn [app skipn].
  rewrite app_length. cbn [length]. apply firstn_all2. lia.
Qed.
Print Assumptions C94_leaf.

Theorem C94_no_separator name : ~ In dot name -> leaf_scope name dot = RStr name.
Proof.
  intros H. unfold leaf_scope, dot in *. cbn [bracket_match].
  assert (HS : search 46 name = Some false).
  { unfold search. f_equal. apply not_true_iff_false. intros E. apply existsb_exists in E as (x & Hx & Ex).
    apply Nat.eqb_eq in Ex as <-. contradiction. }
  rewrite HS. reflexivity.
Qed.
Print Assumptions C94_no_separator.

(** A name of one character is returned whole, also a lone dot or a lone closing bracket. *)
Theorem C94_single c : leaf_scope [c] dot = RStr [c]
  /\ forall o, bracket_match o = Some c -> leaf_scope [c] o = RStr [c].
Proof.
  split.
  - unfold leaf_scope, dot. cbn [bracket_match]. cbn [rev app scan]. destruct (search _ [c]) as [[]|] eqn:E; try reflexivity. discriminate E.
  - intros o H. unfold leaf_scope. rewrite H. cbn [rev app scan]. rewrite Nat.eqb_refl. reflexivity.
Qed.
Print Assumptions C94_single.

(** A leading dot: the first character of the leaf is lost. *)
Theorem C94_leading_dot x leaf : ~ In dot (x :: leaf) ->
  leaf_scope (dot :: x :: leaf) dot = RStr leaf.
Proof.
  intros H. unfold leaf_scope, dot in *. cbn [bracket_match].
  change (search 46 (46 :: x :: leaf)) with (Some true). cbv iota.
  assert (HX : scan 46 None (rev (46 :: x :: leaf)) 0%Z = 1).
  { cbn [rev]. rewrite <- app_assoc. cbn [app]. rewrite scan_skip_none; [|rewrite <- in_rev; intros Y; apply H; now right|cbn; lia].
    cbn [scan]. assert (E : Nat.eqb x 46 = false) by (apply Nat.eqb_neq; intros ->; apply H; now left).
    rewrite E. reflexivity. }
  rewrite HX. cbn [Nat.eqb]. unfold slice. cbn [Nat.add skipn length Nat.sub]. rewrite Nat.sub_0_r.
  f_equal. apply firstn_all.
Qed.
Print Assumptions C94_leading_dot.

(** Brackets: the contents of the last one, however deeply nested inside. *)
Inductive balanced (o c : nat) : str -> Prop :=
| B_nil : balanced o c []
| B_char x s : x <> o -> x <> c -> balanced o c s -> balanced o c (x :: s)
| B_nest s1 s2 : balanced o c s1 -> balanced o c s2 -> balanced o c (o :: s1 ++ c :: s2).

Lemma scan_balanced o c s : o <> c -> balanced o c s -> forall r b, (0 < b)%Z -> 1 < length r ->
  scan o (Some c) (rev s ++ r) b = scan o (Some c) r b.
Proof.
  intros Hoc. induction 1 as [|x s Ho Hc HB IH|s1 s2 H1 IH1 H2 IH2]; intros r b Hb HL.
  - reflexivity.
  - cbn [rev]. rewrite <- app_assoc. cbn [app]. rewrite IH by (cbn; lia).
    destruct r as [|r1 [|r2 r]]; cbn in HL; try lia.
    rewrite scan_eq. rewrite (proj2 (Nat.eqb_neq x c)), (proj2 (Nat.eqb_neq x o)) by auto. reflexivity.
  - cbn [rev]. rewrite rev_app_distr. cbn [rev]. rewrite <- !app_assoc. cbn [app]. rewrite IH2.
    2: assumption.
    2: { cbn. rewrite app_length. cbn. lia. }
    assert (HE : exists x y z, rev s1 ++ o :: r = x :: y :: z).
    { destruct r as [|x [|y z]]; cbn in HL; try lia. destruct (rev s1) as [|x' [|y' z']]; cbn; eauto. }
    destruct HE as (x & y & z & HE). rewrite HE, scan_eq, Nat.eqb_refl, <- HE. rewrite IH1 by (cbn; lia).
    destruct r as [|r1 [|r2 r]]; cbn in HL; try lia.
    rewrite scan_eq. rewrite (proj2 (Nat.eqb_neq o c)) by assumption. rewrite Nat.eqb_refl.
    replace (b + 1 - 1)%Z with b by lia. destruct (Z.eqb_spec b 0) as [->|]; [lia|]. reflexivity.
Qed.

Theorem C94_brackets o c pre body : bracket_match o = Some c -> pre <> [] -> balanced o c body ->
  leaf_scope (pre ++ o :: body ++ [c]) o = RStr body.
Proof.
  intros HM Hp HB. unfold leaf_scope. rewrite HM.
  assert (Hoc : o <> c).
  { intros ->. unfold bracket_match in HM.
    repeat (destruct c as [|c]; cbn in HM; try discriminate). }
  assert (Hd : Nat.eqb o dot = false).
  { apply Nat.eqb_neq. intros ->. discriminate. }
  assert (HR : rev (pre ++ o :: body ++ [c]) = c :: rev body ++ o :: rev pre).
  { rewrite rev_app_distr. cbn [rev]. rewrite rev_app_distr. cbn. now rewrite <- app_assoc. }
  rewrite HR, Nat.eqb_refl.
  assert (HL : 1 < length (o :: rev pre)) by (cbn; rewrite rev_length; destruct pre; [contradiction|cbn; lia]).
  assert (HX : scan o (Some c) (c :: rev body ++ o :: rev pre) 0%Z = length pre).
  { assert (HE : exists x y z, rev body ++ o :: rev pre = x :: y :: z).
    { destruct (o :: rev pre) as [|x [|y z]]; cbn in HL; try lia. destruct (rev body) as [|x' [|y' z']]; cbn; eauto. }
    destruct HE as (x & y & z & HE). cbn [scan]. rewrite Nat.eqb_refl, HE, <- HE.
    rewrite scan_balanced; auto; try lia. destruct (exists_last Hp) as (p' & x' & ->).
    rewrite rev_app_distr. cbn [rev app scan]. rewrite (proj2 (Nat.eqb_neq o c)) by assumption.
    rewrite Nat.eqb_refl. cbn. rewrite rev_length, app_length. cbn. lia. }
  rewrite HX. destruct (length pre) as [|k] eqn:EL; [destruct pre; [contradiction|discriminate]|].
  rewrite Hd. replace (S k - 1 + 1) with (length pre) by lia.
  rewrite app_nth2, Nat.sub_diag by lia. cbn [nth]. rewrite Nat.eqb_refl. f_equal. unfold slice.
  rewrite skipn_app, skipn_all2 by lia. replace (length pre + 1 - length pre) with 1 by lia. cbn [app skipn].
  rewrite app_length. cbn [length]. rewrite app_length. cbn [length].
  replace (length pre + S (length body + 1) - 1 - (length pre + 1)) with (length body) by lia.
  rewrite firstn_app, Nat.sub_diag, firstn_all. cbn. apply app_nil_r.
Qed.
Print Assumptions C94_brackets.

(** The same for a name that is all bracket, unless a bracket follows at once: the first
    character is not looked at. *)
Lemma scan_balanced_end o c s x : o <> c -> balanced o c (x :: s) -> x <> o -> forall b, (0 < b)%Z ->
  scan o (Some c) (rev (x :: s) ++ [o]) b = 1.
Proof.
  intros Hoc HB Hx b Hb. inversion HB as [|? ? Nx Nc HB'|]; subst; [|congruence]. cbn [rev]. rewrite <- app_assoc. cbn [app].
  rewrite scan_balanced by (solve [auto | cbn; lia]). cbn [scan length]. now rewrite (proj2 (Nat.eqb_neq x c)), (proj2 (Nat.eqb_neq x o)) by auto.
Qed.
Lemma scan_first o c l : 2 <= length l -> scan o (Some c) (c :: l) 0 = scan o (Some c) l 1.
Proof. destruct l as [|u [|v z]]; cbn [length]; intros H; try lia. cbn [scan]. now rewrite Nat.eqb_refl. Qed.
Theorem C94_all_bracket o c body : bracket_match o = Some c -> balanced o c body -> (forall s, body <> o :: s) ->
  leaf_scope (o :: body ++ [c]) o = RStr body.
Proof.
  intros HM HB HN. unfold leaf_scope. rewrite HM.
  assert (Hoc : o <> c).
  { intros ->. unfold bracket_match in HM. repeat (destruct c as [|c]; cbn in HM; try discriminate). }
  assert (Hd : Nat.eqb o dot = false). { apply Nat.eqb_neq. intros ->. discriminate. }
  assert (HR : rev (o :: body ++ [c]) = c :: rev body ++ [o]).
  { cbn [rev]. rewrite rev_app_distr. reflexivity. }
  rewrite HR, Nat.eqb_refl.
  assert (HX : scan o (Some c) (c :: rev body ++ [o]) 0%Z = 1).
  { destruct body as [|x body].
    - cbn. now rewrite Nat.eqb_refl.
    - assert (Hx : x <> o) by (intros ->; now apply (HN body)).
      rewrite scan_first by (rewrite app_length, rev_length; cbn; lia). apply scan_balanced_end; auto. lia. }
  rewrite HX, Hd. cbn [Nat.sub Nat.add nth].
  assert (HF : Nat.eqb (nth 0 (body ++ [c]) 0) o = false).
  { destruct body as [|x body]; cbn; apply Nat.eqb_neq; [congruence|intros ->; now apply (HN body)]. }
  rewrite HF. f_equal. unfold slice. replace (length (o :: body ++ [c]) - 1 - (0 + 1)) with (length body) by (cbn [length]; rewrite app_length; cbn [length]; lia).
  change (skipn (0 + 1) (o :: body ++ [c])) with (body ++ [c]).
  rewrite firstn_app, Nat.sub_diag, firstn_all. cbn. apply app_nil_r.
Qed.
Print Assumptions C94_all_bracket.
Theorem C94_all_bracket_limit :    (* "[]", "[b]"; "[[b]]" loses a bracket *)
  leaf_scope [91; 93] lbr = RStr [] /\ leaf_scope [91; 98; 93] lbr = RStr [98] /\ leaf_scope [91; 91; 98; 93; 93] lbr = RStr [98; 93].
Proof. repeat split. Qed.
Print Assumptions C94_all_bracket_limit.

Example C94_example :   (* "a.b.cd" ; "a[b[c]]" *)
  leaf_scope [97; 46; 98; 46; 99; 100] dot = RStr [99; 100]
  /\ leaf_scope [97; 91; 98; 91; 99; 93; 93] lbr = RStr [98; 91; 99; 93]
  /\ balanced 91 93 [98; 91; 99; 93]
  /\ leaf_scope [46; 99; 100] dot = RStr [100].
Proof.
  repeat split; try reflexivity. apply B_char; try discriminate.
  apply (B_nest 91 93 [99] []); [|constructor]. apply B_char; try discriminate. constructor.
Qed.

(** ** C96: uvm_get_array_index_string *)
Lemma back_skip l : forall r, ~ In lbr l -> Forall (fun c => wild c = false) l -> 0 < length r ->
  back (l ++ r) = back r.
Proof.
  induction l as [|c l IH]; intros r HN HW HL; [reflexivity|]. inversion HW; subst. cbn [app back].
  destruct (l ++ r) eqn:E; [destruct l; [destruct r; [cbn in HL; lia|discriminate]|discriminate]|].
  rewrite (proj2 (Nat.eqb_neq c lbr)) by (intros ->; apply HN; now left). rewrite H1, <- E.
  apply IH; auto. intros H. apply HN. now right.
Qed.

Theorem C96_index name idx : name <> [] -> ~ In lbr idx -> Forall (fun c => wild c = false) idx ->
  array_index (name ++ lbr :: idx ++ [rbr]) = RStr idx.
Proof.
  intros Hn Hl Hw. unfold array_index.
  assert (HR : rev (name ++ lbr :: idx ++ [rbr]) = (rbr :: rev idx) ++ lbr :: rev name).
  { rewrite rev_app_distr. cbn [rev]. rewrite rev_app_distr. cbn. now rewrite <- app_assoc. }
  rewrite HR. cbn [app]. rewrite Nat.eqb_refl.
  change (rbr :: rev idx ++ lbr :: rev name) with ((rbr :: rev idx) ++ lbr :: rev name).
  rewrite back_skip.
  2: { intros [H|H]; [discriminate|]. apply in_rev in H. contradiction. }
  2: { constructor; [reflexivity|]. apply Forall_forall. intros x Hx. apply in_rev in Hx.
       rewrite Forall_forall in Hw. auto. }
  2: { cbn. lia. }
  assert (HB : back (lbr :: rev name) = Some (length name)).
  { cbn [back]. destruct (rev name) eqn:E.
    - destruct name; [contradiction|]. cbn in E. symmetry in E. now apply app_cons_not_nil in E.
    - rewrite Nat.eqb_refl, <- E, rev_length. reflexivity. }
  rewrite HB. destruct (length name) eqn:EL; [destruct name; [contradiction|discriminate]|].
  rewrite <- EL. f_equal. unfold slice.
  rewrite skipn_app, skipn_all2 by lia. replace (length name + 1 - length name) with 1 by lia. cbn [app skipn].
  rewrite app_length. cbn [length]. rewrite app_length. cbn [length].
  replace (length name + S (length idx + 1) - 1 - (length name + 1)) with (length idx) by lia.
  rewrite firstn_app, Nat.sub_diag, firstn_all. cbn. apply app_nil_r.
Qed.
Print Assumptions C96_index.

(** No name in front of the bracket: the index is not found. *)
Theorem C96_bare idx : ~ In lbr idx -> array_index (lbr :: idx ++ [rbr]) = RStr [].
Proof.
  intros Hl. unfold array_index.
  assert (HR : rev (lbr :: idx ++ [rbr]) = (rbr :: rev idx) ++ [lbr]).
  { cbn [rev]. rewrite rev_app_distr. reflexivity. }
  rewrite HR. cbn [app]. rewrite Nat.eqb_refl.
  change (rbr :: rev idx ++ [lbr]) with ((rbr :: rev idx) ++ [lbr]).
  assert (HB : forall l, ~ In lbr l -> back (l ++ [lbr]) = Some 0 \/ back (l ++ [lbr]) = None).
  { clear. induction l as [|c l IH]; intros HN; [now left|]. cbn [app back].
    destruct (l ++ [lbr]) eqn:E; [now left|].
    rewrite (proj2 (Nat.eqb_neq c lbr)) by (intros ->; apply HN; now left).
    destruct (wild c); [now right|]. rewrite <- E in *. apply IH. intros H. apply HN. now right. }
  destruct (HB (rbr :: rev idx)) as [->| ->]; try reflexivity.
  intros [H|H]; [discriminate|]. apply in_rev in H. contradiction.
Qed.
Print Assumptions C96_bare.

Theorem C96_wildcard name idx1 w idx2 : wild w = true -> ~ In lbr idx2 -> ~ In lbr [w] ->
  array_index (name ++ lbr :: (idx1 ++ w :: idx2) ++ [rbr]) = RStr [].
Proof.
  intros Hw Hl Hwl. unfold array_index.
  set (r := rev idx1 ++ lbr :: rev name).
  assert (HR : rev (name ++ lbr :: (idx1 ++ w :: idx2) ++ [rbr]) = (rbr :: rev idx2) ++ w :: r).
  { unfold r. rewrite rev_app_distr. cbn [rev]. rewrite !rev_app_distr. cbn. rewrite <- !app_assoc. cbn.
    rewrite <- ?app_assoc. reflexivity. }
  rewrite HR. cbn [app]. rewrite Nat.eqb_refl.
  change (rbr :: rev idx2 ++ w :: r) with ((rbr :: rev idx2) ++ w :: r).
  assert (Hr : r <> []) by (unfold r; intros E; symmetry in E; now apply app_cons_not_nil in E).
  assert (HB : forall l, ~ In lbr l -> back (l ++ w :: r) = None).
  { clear - Hw Hr Hwl. induction l as [|c l IH]; intros HN.
    - cbn [app back]. destruct r; [contradiction|].
      rewrite (proj2 (Nat.eqb_neq w lbr)) by (intros ->; apply Hwl; now left). now rewrite Hw.
    - cbn [app back]. destruct (l ++ w :: r) eqn:E; [symmetry in E; now apply app_cons_not_nil in E|].
      rewrite (proj2 (Nat.eqb_neq c lbr)) by (intros ->; apply HN; now left).
      destruct (wild c); [reflexivity|]. apply IH. intros H. apply HN. now right. }
  rewrite HB; [reflexivity|]. intros [H|H]; [discriminate|]. apply in_rev in H. contradiction.
Qed.
Print Assumptions C96_wildcard.

Example C96_example :
  array_index [97; 91; 49; 50; 93] = RStr [49; 50] /\ array_index [91; 49; 93] = RStr []
  /\ array_index [97; 91; 42; 93] = RStr [] /\ array_index [97; 98] = RStr [].
Proof. repeat split. Qed.

(** ** C95: printing integers *)
Local Open Scope Z_scope.
Definition expected_base (r : radix) : Z :=
  match r with Bin => 2 | Oct => 8 | Hex => 16 | _ => 10 end.
Definition signed (v size : Z) : Z :=
  let u := v mod 2 ^ size in if u <? 2 ^ (size - 1) then u else u - 2 ^ size.

Lemma land_mask v size : 0 <= size -> Z.land v (Z.shiftl 1 size - 1) = v mod 2 ^ size.
Proof.
  intros H. rewrite Z.shiftl_mul_pow2, Z.mul_1_l by lia.
  replace (2 ^ size - 1) with (Z.ones size) by (rewrite Z.ones_equiv; lia). now apply Z.land_ones.
Qed.

(** All but octal and decimal: the low bits, unsigned, in the base asked for. *)
Theorem C95_unsigned v size r p : 1 <= size -> r <> Oct -> r <> Dec ->
  bitstream_to_string v size r p = Text p (expected_base r) (v mod 2 ^ size)
  /\ integral_to_string v size r p = Text p (expected_base r) (v mod 2 ^ size).
Proof.
  intros Hs Ho Hd. unfold bitstream_to_string, integral_to_string.
  destruct r; try contradiction; cbn [is_dec andb num_with_radix expected_base];
    rewrite land_mask by lia; auto.
Qed.
Print Assumptions C95_unsigned.

(** Decimal: right for values that fit as signed non-negative ones, and for
    uvm_bitstream_to_string also for negative ones in range. *)
Theorem C95_decimal v size p : 1 <= size -> - 2 ^ (size - 1) <= v < 2 ^ (size - 1) ->
  (exists p', bitstream_to_string v size Dec p = Text p' 10 (signed v size))
  /\ (0 <= v -> integral_to_string v size Dec p = Text p 10 (signed v size)).
Proof.
  intros Hs Hv. unfold bitstream_to_string, integral_to_string, signed. cbn [is_dec andb num_with_radix].
  assert (HP : 2 ^ size = 2 * 2 ^ (size - 1)).
  { rewrite <- Z.pow_succ_r by lia. f_equal. lia. }
  rewrite !land_mask by lia. rewrite Z.shiftr_div_pow2 by lia.
  destruct (Z.lt_ge_cases v 0) as [Hn|Hn].
  - split; [|lia].
    assert (E1 : v / 2 ^ (size - 1) = -1) by (symmetry; apply Z.div_unique_pos with (r := v + 2 ^ (size - 1)); lia).
    assert (E2 : v mod 2 ^ size = v + 2 ^ size) by (symmetry; apply Z.mod_unique_pos with (q := -1); lia).
    rewrite E1, E2. cbn [Z.eqb negb]. exists []. destruct (Z.ltb_spec (v + 2 ^ size) (2 ^ (size - 1))); [lia|].
    f_equal. lia.
  - rewrite Z.div_small by lia. rewrite Z.mod_small by lia. cbn [Z.eqb negb].
    destruct (Z.ltb_spec v (2 ^ (size - 1))); [|lia]. split; [now exists p|reflexivity].
Qed.
Print Assumptions C95_decimal.

(** Octal is printed in decimal; a decimal value with the sign bit set is printed
    unsigned; the prefix is lost; a negative integral is printed as a large positive
    number. *)
Theorem C95_wrong_cases :
  (forall v size p, 1 <= size -> bitstream_to_string v size Oct p = Text p 10 (v mod 2 ^ size))
  /\ (forall v size p, 1 <= size -> 2 ^ (size - 1) <= v < 2 ^ size ->
        bitstream_to_string v size Dec p = Text [] 10 v /\ integral_to_string v size Dec p = Text [] 10 v
        /\ v <> signed v size)
  /\ (forall v size p, 1 <= size -> - 2 ^ (size - 1) <= v < 0 ->
        integral_to_string v size Dec p = Text p 10 (v + 2 ^ size)).
Proof.
  repeat split.
  - intros v size p Hs. unfold bitstream_to_string. cbn [is_dec andb num_with_radix]. now rewrite land_mask by lia.
  - assert (HP : 2 ^ size = 2 * 2 ^ (size - 1)) by (rewrite <- Z.pow_succ_r by lia; f_equal; lia).
    unfold bitstream_to_string. cbn [is_dec andb]. rewrite Z.shiftr_div_pow2 by lia.
    assert (E : v / 2 ^ (size - 1) = 1) by (symmetry; apply Z.div_unique_pos with (r := v - 2 ^ (size - 1)); lia).
    now rewrite E.
  - assert (HP : 2 ^ size = 2 * 2 ^ (size - 1)) by (rewrite <- Z.pow_succ_r by lia; f_equal; lia).
    unfold integral_to_string. cbn [is_dec andb]. rewrite Z.shiftr_div_pow2 by lia.
    assert (E : v / 2 ^ (size - 1) = 1) by (symmetry; apply Z.div_unique_pos with (r := v - 2 ^ (size - 1)); lia).
    now rewrite E.
  - unfold signed. assert (0 < 2 ^ size) by (apply Z.pow_pos_nonneg; lia).
    assert (0 < 2 ^ (size - 1)) by (apply Z.pow_pos_nonneg; lia).
    rewrite Z.mod_small by lia. destruct (Z.ltb_spec v (2 ^ (size - 1))); lia.
  - intros v size p Hs Hv. assert (HP : 2 ^ size = 2 * 2 ^ (size - 1)) by (rewrite <- Z.pow_succ_r by lia; f_equal; lia).
    unfold integral_to_string. cbn [is_dec andb num_with_radix]. rewrite Z.shiftr_div_pow2, land_mask by lia.
    assert (E1 : v / 2 ^ (size - 1) = -1) by (symmetry; apply Z.div_unique_pos with (r := v + 2 ^ (size - 1)); lia).
    assert (E2 : v mod 2 ^ size = v + 2 ^ size) by (symmetry; apply Z.mod_unique_pos with (q := -1); lia).
    now rewrite E1, E2.
Qed.
Print Assumptions C95_wrong_cases.

Example C95_example :
  bitstream_to_string 511 8 Hex [] = Text [] 16 255 /\ bitstream_to_string (-3) 8 Dec [] = Text [] 10 (-3)
  /\ integral_to_string (-3) 8 Dec [] = Text [] 10 253 /\ bitstream_to_string 8 8 Oct [] = Text [] 10 8.
Proof. repeat split. Qed.
