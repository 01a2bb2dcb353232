(** Proofs about register blocks. *)
From Coq Require Import List Bool Arith ZArith String Lia.
From Verif Require Import Prelude RegBlkModel RegBlkSpec.
Import ListNotations.
Local Open Scope nat_scope.
Local Open Scope list_scope.

Fixpoint blk_ind' (P : blk -> Prop) (H : forall i r s, Forall P s -> P (Blk i r s)) (b : blk) : P b :=
  match b with Blk i r s => H i r s ((fix go (l : list blk) : Forall P l := match l with [] => Forall_nil P | c :: l => Forall_cons c (blk_ind' P H c) (go l) end) s) end.

Lemma get_registers_eq b : get_registers b = regs b ++ flat_map get_registers (subs b).
Proof. destruct b as [i r s]. cbn. f_equal. Qed.
Lemma get_blocks_eq b : get_blocks b = flat_map (fun c => c :: get_blocks c) (subs b).
Proof. destruct b as [i r s]. reflexivity. Qed.
Lemma registers_blocks b : get_registers b = flat_map regs (b :: get_blocks b).
Proof.
  induction b as [i r s IH] using blk_ind'. rewrite get_registers_eq. cbn [flat_map]. f_equal. rewrite get_blocks_eq. cbn [subs].
  induction IH as [|c l Hc Hl IHl]; auto. cbn [flat_map]. cbn [flat_map app] in *. rewrite Hc, flat_map_app, IHl. now rewrite app_assoc.
Qed.
Lemma find_app {A} (f : A -> bool) l1 l2 : find f (l1 ++ l2) = match find f l1 with Some x => Some x | None => find f l2 end.
Proof. induction l1; cbn; auto. destruct (f a); auto. Qed.
Lemma by_name_find name b n : get_reg_by_name name b n = find (fun r => Nat.eqb (name r) n) (get_registers b).
Proof.
  unfold get_reg_by_name. rewrite get_registers_eq, find_app. destruct (find _ (regs b)); auto.
  induction (subs b) as [|c l IH]; cbn; auto. rewrite find_app. destruct (find _ (get_registers c)); auto.
Qed.

Section Ops.
Context {X : Type} (needs : nat -> X -> bool) (upd_reg mir_reg : nat -> X -> X * option stat) (rst_reg : nat -> X -> X).
Lemma reset_eq b x : reset rst_reg b x = fold_left (fun x i => rst_reg i x) (get_registers b) x.
Proof.
  revert x. induction b as [i r s IH] using blk_ind'. intros x. rewrite get_registers_eq, fold_left_app. cbn [reset regs subs].
  generalize (fold_left (fun x i => rst_reg i x) r x). clear x. induction IH as [|c l Hc Hl IHl]; intros x; cbn; auto.
  rewrite fold_left_app. rewrite Hc. apply IHl.
Qed.
Lemma needs_eq b x : needs_update needs b x = existsb (fun i => needs i x) (get_registers b).
Proof.
  induction b as [i r s IH] using blk_ind'. rewrite get_registers_eq, existsb_app. cbn [needs_update regs subs]. f_equal.
  induction IH as [|c l Hc Hl IHl]; cbn; auto. rewrite existsb_app, Hc. now rewrite IHl.
Qed.

(** update *)
Lemma update_regs_in rs x x' l f : update_regs needs upd_reg rs x = (x', l, f) -> incl l rs.
Proof.
  revert x x' l f. induction rs as [|r rs IH]; intros x x' l f; cbn.
  - intros H. injection H as <- <- <-. intros ? [].
  - destruct (needs r x); [|intros H; apply IH in H; auto using incl_tl].
    destruct (upd_reg r x) as [x1 [s|]].
    + destruct (bad s).
      * intros H. injection H as <- <- <-. intros ? [<-|[]]. now left.
      * destruct (update_regs needs upd_reg rs x1) as [[x2 l2] f2] eqn:E. intros H. injection H as <- <- <-.
        apply IH in E. intros ? [<-|I]; [now left|right; auto].
    + intros H. injection H as <- <- <-. intros ? [<-|[]]. now left.
Qed.
Lemma update_in b x : incl (snd (fst (update needs upd_reg b x))) (spine b).
Proof.
  revert x. induction b as [i r s IH] using blk_ind'. intros x. cbn [update spine].
  destruct (update_regs needs upd_reg r x) as [[x1 l] f] eqn:E. apply update_regs_in in E.
  destruct f; cbn; try (now apply incl_appl).
  destruct s as [|c s]; cbn; [now apply incl_appl|].
  inversion IH; subst. specialize (H1 x1). destruct (update needs upd_reg c x1) as [[x2 l2] o]. cbn in *.
  apply incl_app; [now apply incl_appl|now apply incl_appr].
Qed.
Lemma update_children b x : subs b <> [] -> snd (update needs upd_reg b x) = None \/ exists s, snd (update needs upd_reg b x) = Some s /\ bad s = true.
Proof.
  destruct b as [i r s]. cbn [subs update]. intros H. destruct (update_regs needs upd_reg r x) as [[x1 l] f] eqn:E.
  destruct f; cbn; auto.
  - destruct s; [congruence|]. destruct (update needs upd_reg b x1) as [[x2 l2] o]. auto.
  - right. exists s0. split; auto.
    revert x x1 l E. induction r as [|r rs IH]; intros x x1 l E; cbn in E; [discriminate|].
    destruct (needs r x); [|eauto]. destruct (upd_reg r x) as [x2 [s1|]]; [|discriminate].
    destruct (bad s1) eqn:B; [congruence|]. destruct (update_regs needs upd_reg rs x2) as [[x3 l3] f3] eqn:E3. injection E as <- <- ->. eauto.
Qed.
Section Good.
Context (frame : forall r r' x, r <> r' -> needs r' (fst (upd_reg r x)) = needs r' x)
        (good : forall r x, exists s, snd (upd_reg r x) = Some s /\ bad s = false)
        (clear : forall r x, needs r (fst (upd_reg r x)) = false).
Lemma update_regs_good rs x : NoDup rs ->
  exists x', update_regs needs upd_reg rs x = (x', filter (fun r => needs r x) rs, Go) /\
    (forall r, ~ In r rs -> needs r x' = needs r x) /\ (forall r, In r rs -> needs r x' = false).
Proof.
  revert x. induction rs as [|r rs IH]; intros x N; cbn.
  - exists x. repeat split; auto. intros ? [].
  - inversion N as [|? ? N1 N2]; subst. destruct (needs r x) eqn:E.
    + destruct (good r x) as (s & G & B). pose proof (frame r) as F. specialize (fun r' => F r' x).
      pose proof (clear r x) as C. destruct (upd_reg r x) as [x1 s1]. cbn in G, F, C. subst s1. rewrite B.
      destruct (IH x1 N2) as (x2 & -> & K1 & K2). exists x2. split; [|split].
      * f_equal. f_equal. f_equal. apply filter_ext_in. intros a I. apply F. intros ->. contradiction.
      * intros r' I. rewrite K1 by (intros I'; apply I; now right). apply F. intros ->. apply I. now left.
      * intros r' [<-|I]; auto. rewrite K1; auto.
    + destruct (IH x N2) as (x2 & -> & K1 & K2). exists x2. split; auto. split.
      * intros r' I. apply K1. intros I'; apply I; now right.
      * intros r' [<-|I]; auto. rewrite K1; auto.
Qed.
Lemma update_good b x : NoDup (spine b) ->
  exists x', update needs upd_reg b x = (x', filter (fun r => needs r x) (spine b), match subs b with [] => Some IsOk | _ => None end) /\
    (forall r, ~ In r (spine b) -> needs r x' = needs r x) /\ (forall r, In r (spine b) -> needs r x' = false).
Proof.
  revert x. induction b as [i r s IH] using blk_ind'. intros x N. cbn [update spine subs] in *.
  assert (N1 : NoDup r /\ NoDup (match s with [] => [] | c :: _ => spine c end) /\ forall a, In a r -> ~ In a (match s with [] => [] | c :: _ => spine c end)).
  { revert N. generalize (match s with [] => [] | c :: _ => spine c end). clear. induction r as [|a r IH]; intros l N; cbn in *.
    - repeat split; auto. constructor.
    - inversion N; subst. destruct (IH _ H2) as (A & B & C). repeat split; auto.
      + constructor; auto. intros I. apply H1. apply in_or_app. auto.
      + intros a' [<-|I]; auto. intros I. apply H1. apply in_or_app. auto. }
  destruct N1 as (N1 & N2 & N3).
  destruct (update_regs_good r x N1) as (x1 & -> & K1 & K2).
  destruct s as [|c s].
  - exists x1. rewrite app_nil_r. auto.
  - inversion IH; subst. destruct (H1 x1 N2) as (x2 & -> & L1 & L2). exists x2. split; [|split].
    + rewrite filter_app. f_equal. f_equal. f_equal. apply filter_ext_in. intros a I. apply K1. intros J. exact (N3 a J I).
    + intros a I. rewrite L1, K1; auto; intros J; apply I; apply in_or_app; auto.
    + intros a I. apply in_app_or in I. destruct I as [I|I]; auto. rewrite L1; auto.
Qed.
End Good.
Lemma update_regs_fail rs x x' l s : update_regs needs upd_reg rs x = (x', l, Ret s) ->
  exists pre r post, rs = pre ++ r :: post /\ incl l (pre ++ [r]) /\ last l r = r /\ l <> [] /\ bad s = true.
Proof.
  revert x x' l. induction rs as [|r rs IH]; intros x x' l; cbn; [discriminate|].
  assert (Y : forall x x' l, update_regs needs upd_reg rs x = (x', l, Ret s) ->
     exists pre r0 post, r :: rs = pre ++ r0 :: post /\ incl l (pre ++ [r0]) /\ last l r0 = r0 /\ l <> [] /\ bad s = true).
  { intros a a' b E. destruct (IH _ _ _ E) as (pre & q & post & -> & I & L & N & B). exists (r :: pre), q, post. repeat split; auto. now apply incl_tl. }
  destruct (needs r x); [|apply Y].
  destruct (upd_reg r x) as [x1 [s1|]]; [|discriminate]. destruct (bad s1) eqn:B.
  - intros H. injection H as <- <- <-. exists [], r, rs. repeat split; auto; try discriminate. apply incl_refl.
  - destruct (update_regs needs upd_reg rs x1) as [[x2 l2] f2] eqn:E. intros H. injection H as <- <- ->.
    destruct (IH _ _ _ E) as (pre & q & post & -> & I & L & N & Bs). exists (r :: pre), q, post. repeat split; auto; try discriminate.
    + intros a [<-|J]; [now left|right; auto].
    + destruct l2; [congruence|exact L].
Qed.

(** mirror *)
Lemma sweep_app l1 l2 x :
  sweep mir_reg (l1 ++ l2) x =
  let (x1, t1) := sweep mir_reg l1 x in
  if existsb (fun p => match snd p with None => true | _ => false end) t1 then (x1, t1)
  else let (x2, t2) := sweep mir_reg l2 x1 in (x2, t1 ++ t2).
Proof.
  revert x. induction l1 as [|r l1 IH]; intros x; cbn.
  - destruct (sweep mir_reg l2 x); auto.
  - destruct (mir_reg r x) as [x1 [s|]]; cbn; auto. rewrite IH. destruct (sweep mir_reg l1 x1) as [x2 t]. cbn.
    destruct (existsb _ t); auto. destruct (sweep mir_reg l2 x2); auto.
Qed.
Definition worst (st : stat) (l : list (nat * option stat)) : option stat :=
  if existsb (fun p => match snd p with None => true | _ => false end) l then None
  else if existsb (fun p => match snd p with Some NotOk => true | _ => false end) l then Some NotOk
  else Some st.
Lemma mirror_regs_sweep rs st x : (st = IsOk \/ st = NotOk) ->
  mirror_regs mir_reg rs st x = let (x1, t) := sweep mir_reg rs x in (x1, map fst t, worst st t).
Proof.
  revert st x. induction rs as [|r rs IH]; intros st x S1; cbn; auto.
  destruct (mir_reg r x) as [x1 [s|]]; auto.
  rewrite IH by (destruct s; auto). destruct (sweep mir_reg rs x1) as [x2 t]. unfold worst. cbn. f_equal.
  destruct (existsb (fun p => match snd p with None => true | _ => false end) t); auto.
  destruct s; cbn; auto. destruct (existsb _ t); auto.
Qed.
Lemma worst_app st a b : worst st a = None \/ (exists s, worst st a = Some s /\ worst st (a ++ b) = worst s b).
Proof.
  unfold worst. rewrite !existsb_app. destruct (existsb (fun p => match snd p with None => true | _ => false end) a); auto. right.
  exists (if existsb (fun p => match snd p with Some NotOk => true | _ => false end) a then NotOk else st).
  destruct (existsb (fun p => match snd p with Some NotOk => true | _ => false end) a); cbn; split; auto.
  destruct (existsb (fun p => match snd p with None => true | _ => false end) b); auto.
  destruct (existsb (fun p => match snd p with Some NotOk => true | _ => false end) b); auto.
Qed.
Lemma worst_ok st t : (st = IsOk \/ st = NotOk) ->
  worst st t = match worst IsOk t with None => None | Some s => Some (if bad s then s else st) end.
Proof.
  intros H. unfold worst. destruct (existsb (fun p => match snd p with None => true | _ => false end) t); auto.
  destruct (existsb _ t); auto.
Qed.
Lemma worst_none t st : existsb (fun p => match snd p with None => true | _ => false end) t = true -> worst st t = None.
Proof. unfold worst. intros ->. auto. Qed.
Lemma worst_some t st : existsb (fun p => match snd p with None => true | _ => false end) t = false -> worst st t <> None.
Proof. unfold worst. intros ->. destruct (existsb _ t); discriminate. Qed.
Lemma worst_good t st s : (st = IsOk \/ st = NotOk) -> worst st t = Some s -> s = IsOk \/ s = NotOk.
Proof. unfold worst. destruct (existsb _ t); [discriminate|]. destruct (existsb _ t); intros H E; injection E as <-; auto. Qed.

Definition gos (l : list blk) (st : stat) (x : X) : X * list nat * option stat :=
  (fix go (l : list blk) (st : stat) (x : X) : X * list nat * option stat :=
           match l with
           | [] => (x, [], Some st)
           | c :: l =>
               let '(x1, l1, o1) := mirror mir_reg c x in
               match o1 with
               | None => (x1, l1, None)
               | Some s => let '(x2, l2, o2) := go l (if bad s then s else st) x1 in (x2, l1 ++ l2, o2)
               end
           end) l st x.
Lemma mirror_sweep b x :
  mirror mir_reg b x = let (x1, t) := sweep mir_reg (get_registers b) x in (x1, map fst t, summary t).
Proof.
  revert x. induction b as [i r s IH] using blk_ind'. intros x. rewrite get_registers_eq, sweep_app. cbn [mirror regs subs].
  rewrite mirror_regs_sweep by auto. destruct (sweep mir_reg r x) as [x1 t1].
  destruct (existsb (fun p => match snd p with None => true | _ => false end) t1) eqn:E1.
  - rewrite (worst_none _ _ E1). unfold summary. now rewrite E1.
  - destruct (worst IsOk t1) as [st|] eqn:W1; [|exfalso; eapply worst_some; eauto].
    pose proof (worst_good t1 IsOk st (or_introl eq_refl) W1) as SG. change (summary ?a) with (worst IsOk a) in *.
    assert (G : forall st x, st = IsOk \/ st = NotOk ->
      gos s st x = let (x2, t2) := sweep mir_reg (flat_map get_registers s) x in (x2, map fst t2, worst st t2)).
    { clear - IH. induction IH as [|c l Hc Hl IHl]; intros st x SG.
      - cbn. destruct SG as [-> | ->]; reflexivity.
      - cbn [gos flat_map]. rewrite Hc. rewrite sweep_app. destruct (sweep mir_reg (get_registers c) x) as [x1 t1].
        change (summary t1) with (worst IsOk t1).
        destruct (existsb (fun p => match snd p with None => true | _ => false end) t1) eqn:E1.
        + rewrite !(worst_none _ _ E1). auto.
        + destruct (worst IsOk t1) as [s1|] eqn:W1; [|exfalso; eapply worst_some; eauto].
          pose proof (worst_good t1 IsOk s1 (or_introl eq_refl) W1) as SG1.
          fold (gos l). rewrite IHl by (destruct (bad s1); auto). destruct (sweep mir_reg (flat_map get_registers l) x1) as [x2 t2].
          rewrite map_app. f_equal. destruct (worst_app st t1 t2) as [A|(s2 & A & B)].
          * exfalso. eapply worst_some; eauto.
          * rewrite B. rewrite worst_ok, W1 in A by auto. now injection A as <-. }
    fold (gos s st x1). rewrite G by auto. destruct (sweep mir_reg (flat_map get_registers s) x1) as [x2 t2]. rewrite map_app. f_equal.
    destruct (worst_app IsOk t1 t2) as [A|(s2 & A & B)]; [congruence|]. unfold summary, worst in *. rewrite W1 in A. injection A as <-. auto.
Qed.
End Ops.

(** ** Locking *)
Lemma memb_in n l : memb n l = true <-> In n l.
Proof.
  unfold memb. rewrite existsb_exists. split.
  - intros (x & I & E). apply Nat.eqb_eq in E. now subst.
  - intros I. exists n. split; auto. apply Nat.eqb_refl.
Qed.
Definition fresh (s s' : bst) (c : nat) : Prop := locked s' c = true /\ locked s c = false.
Definition go_lock (fuel : nat) : list nat -> bst -> option bst :=
  fix go (l : list nat) (s : bst) : option bst :=
    match l with [] => Some s | c :: l => match lock_model fuel s c with Some s => go l s | None => None end end.
Lemma lock_model_eq fuel s b :
  lock_model (S fuel) s b = if locked s b then Some s else go_lock fuel (kids s b) (lock_regs s b).
Proof. reflexivity. Qed.
Record post (s : bst) (bs : list nat) (s' : bst) : Prop := {
  po_count : count s' = count s;
  po_kids : kids s' = kids s;
  po_bregs : bregs s' = bregs s;
  po_mono : forall c, locked s c = true -> locked s' c = true;
  po_lock : forall b, In b bs -> locked s' b = true;
  po_below : forall c, fresh s s' c -> exists b, In b bs /\ below (kids s) b c;
  po_closed : forall c, fresh s s' c -> forall d, In d (kids s c) -> locked s' d = true;
  po_rlocked : forall r, rlocked s' r = true <-> rlocked s r = true \/ exists c, fresh s s' c /\ In r (bregs s c) }.
Lemma post_refl s bs : (forall b, In b bs -> locked s b = true) -> post s bs s.
Proof.
  intros H. constructor; auto.
  - intros c [A B]; congruence.
  - intros c [A B]; congruence.
  - intros r. split; auto. intros [A|(c & [A B] & _)]; congruence.
Qed.
Lemma post_cons s b s1 l s2 : post s [b] s1 -> post s1 l s2 -> post s (b :: l) s2.
Proof.
  intros P Q. destruct P as [a1 a2 a3 a4 a5 a6 a7 a8], Q as [b1 b2 b3 b4 b5 b6 b7 b8].
  assert (F : forall c, fresh s s2 c -> fresh s s1 c \/ fresh s1 s2 c).
  { intros c [A B]. destruct (locked s1 c) eqn:E; [left|right]; split; auto. }
  constructor; try congruence.
  - auto.
  - intros b0 [<-|I]; auto. apply b4, a5. now left.
  - intros c H. destruct (F c H) as [G|G].
    + destruct (a6 c G) as (b0 & [<-|[]] & K). exists b. split; auto. now left.
    + destruct (b6 c G) as (b0 & I & K). exists b0. split; [now right|]. now rewrite <- a2.
  - intros c H d I. destruct (F c H) as [G|G].
    + apply b4. eapply a7; eauto.
    + eapply b7; eauto. now rewrite a2.
  - intros r. rewrite b8, a8. rewrite a3. split.
    + intros [[A|(c & A & I)]|(c & A & I)]; auto; right; exists c; split; auto.
      * destruct A. split; auto.
      * destruct A as [A1 A2]. split; auto. destruct (locked s c) eqn:E; auto. apply a4 in E. congruence.
    + intros [A|(c & A & I)]; auto. destruct (F c A); [left; right|right]; exists c; split; auto.
Qed.
Lemma go_post fuel : (forall s b s', lock_model fuel s b = Some s' -> post s [b] s') ->
  forall l s s', go_lock fuel l s = Some s' -> post s l s'.
Proof.
  intros H l. induction l as [|c l IH]; intros s s' E; cbn in E.
  - injection E as <-. apply post_refl. intros ? [].
  - destruct (lock_model fuel s c) as [s1|] eqn:E1; [|discriminate]. eapply post_cons; eauto.
Qed.
Lemma below_step {k b c} d : In c (k b) -> below k c d -> below k b d.
Proof. intros I H. induction H; [|eapply below_kid; eauto]. eapply below_kid; eauto. constructor. Qed.
Lemma lock_post fuel s b s' : lock_model fuel s b = Some s' -> post s [b] s'.
Proof.
  revert s b s'. induction fuel as [|fuel IH]; intros s b s' E; [discriminate|]. rewrite lock_model_eq in E.
  destruct (locked s b) eqn:L.
  - injection E as <-. apply post_refl. intros ? [<-|[]]; auto.
  - apply (go_post fuel IH) in E. destruct E as [b1 b2 b3 b4 b5 b6 b7 b8]. cbn in *.
    assert (Lb : locked s' b = true) by (apply b4; unfold upd; now rewrite Nat.eqb_refl).
    assert (F : forall c, fresh s s' c -> c = b \/ fresh (lock_regs s b) s' c).
    { intros c [A B]. destruct (Nat.eq_dec c b); auto. right. split; auto. cbn. unfold upd. destruct (Nat.eqb_spec c b); auto. congruence. }
    constructor; auto.
    + intros c A. apply b4. unfold upd. destruct (Nat.eqb c b); auto.
    + intros c [<-|[]]; auto.
    + intros c A. exists b. split; [now left|]. destruct (F c A) as [->|G]; [constructor|]. destruct (b6 c G) as (d & I & K). eapply below_step; eauto.
    + intros c A d I. destruct (F c A) as [->|G]; eauto.
    + intros r. rewrite b8, orb_true_iff, memb_in. split.
      * intros [[A|A]|(c & [A B] & I)]; auto; right; [exists b|exists c]; split; auto; split; auto.
        cbn in B. unfold upd in B. destruct (Nat.eqb_spec c b); auto; discriminate.
      * intros [A|(c & A & I)]; auto. destruct (F c A) as [->|G]; auto. right. exists c. auto.
Qed.
Definition unl (s : bst) : nat := List.length (filter (fun b => negb (locked s b)) (seq 0 (count s))).
Lemma filter_len_le {A} (f g : A -> bool) l : (forall x, f x = true -> g x = true) -> List.length (filter f l) <= List.length (filter g l).
Proof. intros H. induction l as [|a l IH]; cbn; auto. destruct (f a) eqn:E; [rewrite (H _ E); cbn; lia|]. destruct (g a); cbn; lia. Qed.
Lemma filter_len_lt {A} (f g : A -> bool) l a : (forall x, f x = true -> g x = true) -> In a l -> f a = false -> g a = true ->
  List.length (filter f l) < List.length (filter g l).
Proof.
  intros H. induction l as [|b l IH]; intros I Ha Hb; [contradiction|]. pose proof (filter_len_le f g l H) as L. cbn. destruct I as [->|I].
  - rewrite Ha, Hb. cbn. lia.
  - specialize (IH I Ha Hb). destruct (f b) eqn:E; [rewrite (H _ E); cbn; lia|]. destruct (g b); cbn; lia.
Qed.
Definition ranged (s : bst) : Prop := forall b c, In c (kids s b) -> c < count s.
Lemma post_unl s l s' : post s l s' -> unl s' <= unl s.
Proof.
  intros P. unfold unl. rewrite (po_count _ _ _ P). apply filter_len_le. intros x. rewrite !negb_true_iff. intros A.
  destruct (locked s x) eqn:E; auto. apply (po_mono _ _ _ P) in E. congruence.
Qed.
Lemma lock_total fuel s b : ranged s -> b < count s -> unl s < fuel -> exists s', lock_model fuel s b = Some s'.
Proof.
  revert s b. induction fuel as [|fuel IH]; intros s b R B U; [lia|]. rewrite lock_model_eq. destruct (locked s b) eqn:L; eauto.
  assert (U1 : unl (lock_regs s b) < unl s).
  { unfold unl. cbn. apply filter_len_lt with (a := b).
    - intros x. unfold upd. destruct (Nat.eqb x b); [discriminate|auto].
    - apply in_seq. lia.
    - unfold upd. now rewrite Nat.eqb_refl.
    - now rewrite L. }
  assert (G : forall l t, ranged t -> unl t < fuel -> (forall c, In c l -> c < count t) -> exists s', go_lock fuel l t = Some s').
  { clear - IH. induction l as [|c l IHl]; intros t R U C; cbn; eauto.
    destruct (IH t c R (C c (or_introl eq_refl)) U) as (t1 & E). rewrite E. pose proof (lock_post _ _ _ _ E) as P. apply IHl.
    - intros b d. rewrite (po_kids _ _ _ P), (po_count _ _ _ P). apply R.
    - pose proof (post_unl _ _ _ P). lia.
    - intros d I. rewrite (po_count _ _ _ P). apply C. now right. }
  apply G; [exact R|lia|]. intros c I. cbn. eapply R; eauto.
Qed.
Lemma unl_le s : unl s <= count s.
Proof. unfold unl. rewrite <- (seq_length (count s) 0) at 2. generalize (seq 0 (count s)). intros l. induction l as [|a l IH]; cbn; auto. destruct (negb _); cbn; lia. Qed.

Record binv (s : bst) : Prop := {
  bi_ranged : ranged s;
  bi_kids : forall b, NoDup (kids s b);
  bi_regs : forall b, NoDup (bregs s b);
  bi_count : forall b, locked s b = true -> b < count s;
  bi_out : forall b, count s <= b -> kids s b = [] /\ bregs s b = [];
  bi_closed : forall b, locked s b = true -> forall c, In c (kids s b) -> locked s c = true;
  bi_rlocked : forall r, rlocked s r = true <-> exists b, locked s b = true /\ In r (bregs s b) }.
Lemma nodup_snoc {A} (l : list A) a : NoDup l -> ~ In a l -> NoDup (l ++ [a]).
Proof.
  intros N I. induction N as [|b l J N IH]; cbn; [repeat constructor; auto|]. constructor.
  - intros K. apply in_app_or in K. destruct K as [K|[->|[]]]; auto. apply I. now left.
  - apply IH. intros K. apply I. now right.
Qed.
Lemma memb_false n l : memb n l = false -> ~ In n l.
Proof. intros H I. apply memb_in in I. congruence. Qed.
Lemma below_range s b c : ranged s -> b < count s -> below (kids s) b c -> c < count s.
Proof. intros R B H. induction H; auto. eapply R; eauto. Qed.
Lemma block_step s b : binv s -> b < count s -> exists s', lock_model (S (count s)) s b = Some s' /\ post s [b] s' /\ binv s'.
Proof.
  intros I B. destruct (lock_total (S (count s)) s b (bi_ranged _ I) B) as (s' & E); [pose proof (unl_le s); lia|].
  exists s'. split; auto. pose proof (lock_post _ _ _ _ E) as P. split; auto. clear E. destruct P as [p1 p2 p3 p4 p5 p6 p7 p8], I as [i1 i2 i3 i4 i5 i6 i7].
  assert (D : forall c, locked s' c = true -> locked s c = true \/ fresh s s' c).
  { intros c H. destruct (locked s c) eqn:E; auto. right. split; auto. }
  constructor.
  - intros x c. rewrite p2, p1. apply i1.
  - now rewrite p2.
  - now rewrite p3.
  - intros c H. rewrite p1. destruct (D c H) as [G|G]; auto. destruct (p6 c G) as (d & [<-|[]] & K). eapply below_range; eauto.
  - intros c. rewrite p1, p2, p3. apply i5.
  - intros c H d J. rewrite p2 in J. destruct (D c H); eauto.
  - intros r. rewrite p8, p3, i7. split.
    + intros [(c & A & J)|(c & [A _] & J)]; exists c; auto.
    + intros (c & A & J). destruct (D c A); [left|right]; exists c; auto.
Qed.
Lemma binv_init : binv binit.
Proof.
  constructor; cbn; auto; try discriminate; try (intros; constructor); try (intros ? ? []).
  - discriminate.
  - intros (b & H & _). discriminate.
Qed.
Lemma add_block_inv s p c : binv s -> p < count s -> c < count s -> binv (fst (add_block s p c)).
Proof.
  intros I Hp Hc. unfold add_block. destruct (locked s p) eqn:L; auto. destruct (memb c (kids s p)) eqn:M; auto.
  apply memb_false in M. destruct I as [i1 i2 i3 i4 i5 i6 i7]. cbn. constructor; cbn; auto.
  - intros b d. cbn. unfold upd. destruct (Nat.eqb_spec b p); [subst|apply i1]. intros J. apply in_app_or in J. destruct J as [J|[<-|[]]]; eauto.
  - intros b. unfold upd. destruct (Nat.eqb_spec b p); auto. now apply nodup_snoc.
  - intros b H. unfold upd. destruct (Nat.eqb_spec b p); auto. lia.
  - intros b H d. unfold upd. destruct (Nat.eqb_spec b p); [congruence|]. eauto.
Qed.
Lemma add_reg_inv s p c : binv s -> p < count s -> binv (fst (add_reg s p c)).
Proof.
  intros I Hp. unfold add_reg. destruct (locked s p) eqn:L; auto. destruct (memb c (bregs s p)) eqn:M; auto.
  apply memb_false in M. destruct I as [i1 i2 i3 i4 i5 i6 i7]. cbn. constructor; cbn; auto.
  - intros b. unfold upd. destruct (Nat.eqb_spec b p); auto. now apply nodup_snoc.
  - intros b H. unfold upd. destruct (Nat.eqb_spec b p); auto. lia.
  - intros r. rewrite i7. unfold upd. split; intros (b & A & J); exists b; split; auto; destruct (Nat.eqb_spec b p); auto; congruence.
Qed.
Lemma bstep_inv s c : binv s -> binv (fst (bstep s c)).
Proof.
  intros I. destruct c as [|p c|p r|b]; unfold bstep.
  - destruct I as [i1 i2 i3 i4 i5 i6 i7]. constructor; cbn; auto.
    + intros b d J. cbn in *. apply i1 in J. lia.
    + intros b H. apply i4 in H. lia.
    + intros b H. apply i5. lia.
  - destruct (Nat.ltb_spec p (count s)), (Nat.ltb_spec c (count s)); auto. now apply add_block_inv.
  - destruct (Nat.ltb_spec p (count s)); auto. now apply add_reg_inv.
  - destruct (Nat.ltb_spec b (count s)) as [B|B]; auto. destruct (block_step s b I B) as (s' & E & _ & J). rewrite E. auto.
Qed.
Lemma brun_inv cs s : binv s -> binv (brun s cs).
Proof. revert s. induction cs; intros s I; cbn; auto. apply IHcs. now apply bstep_inv. Qed.
Lemma binv_run cs : binv (brun binit cs).
Proof. apply brun_inv, binv_init. Qed.
Lemma bstep_lock s b : binv s -> b < count s -> exists s', bstep s (BLock b) = (s', true) /\ post s [b] s'.
Proof.
  intros I B. destruct (block_step s b I B) as (s' & E & P & _). exists s'. split; auto. unfold bstep. rewrite E. apply Nat.ltb_lt in B. now rewrite B.
Qed.
Lemma lock_below s s' b : binv s -> post s [b] s' -> forall c, locked s' c = true <-> locked s c = true \/ below (kids s) b c.
Proof.
  intros I P c. destruct P as [p1 p2 p3 p4 p5 p6 p7 p8]. split.
  - intros H. destruct (locked s c) eqn:E; auto. right. destruct (p6 c) as (d & [<-|[]] & K); [split|]; auto.
  - intros [H|H]; auto. induction H as [|c d H IH J]; [apply p5; now left|]. destruct (locked s c) eqn:E.
    + apply p4. eapply (bi_closed _ I); eauto.
    + eapply p7; eauto. split; auto.
Qed.
Lemma frozen_step s c b : binv s -> locked s b = true ->
  locked (fst (bstep s c)) b = true /\ kids (fst (bstep s c)) b = kids s b /\ bregs (fst (bstep s c)) b = bregs s b.
Proof.
  intros I L. destruct c as [|p c|p r|b0]; try (cbn; now auto).
  - unfold bstep. destruct (_ && _); auto. unfold add_block. destruct (locked s p) eqn:E; auto. destruct (memb _ _); auto. cbn. unfold upd.
    destruct (Nat.eqb_spec b p); auto. congruence.
  - unfold bstep. destruct (_ <? _); auto. unfold add_reg. destruct (locked s p) eqn:E; auto. destruct (memb _ _); auto. cbn. unfold upd.
    destruct (Nat.eqb_spec b p); auto. congruence.
  - destruct (Nat.ltb_spec b0 (count s)) as [B|B].
    + destruct (bstep_lock s b0 I B) as (s' & E & P). rewrite E. cbn. rewrite (po_kids _ _ _ P), (po_bregs _ _ _ P). split; auto. now apply (po_mono _ _ _ P).
    + unfold bstep. apply Nat.ltb_ge in B. rewrite B. auto.
Qed.
Lemma frozen cs s b : binv s -> locked s b = true ->
  locked (brun s cs) b = true /\ kids (brun s cs) b = kids s b /\ bregs (brun s cs) b = bregs s b.
Proof.
  revert s. induction cs as [|c cs IH]; intros s I L; cbn; auto. destruct (frozen_step s c b I L) as (A & B & C).
  destruct (IH _ (bstep_inv s c I) A) as (D & E & F). rewrite E, F. auto.
Qed.

(** ** Paths *)
Section Paths.
Context (sep : string).
Local Open Scope string_scope.
Lemma concat_snoc cs q : cs <> [] -> String.concat sep (cs ++ [q])%list = (String.concat sep cs ++ sep ++ q)%string.
Proof.
  assert (A : forall a b c : string, ((a ++ b) ++ c = a ++ b ++ c)%string) by (induction a as [|x a IH]; intros b c; cbn; [|rewrite IH]; auto).
  induction cs as [|a cs IH]; intros H; [congruence|]. destruct cs as [|b cs]; [reflexivity|].
  change (String.concat sep ((a :: b :: cs) ++ [q])%list) with (a ++ sep ++ String.concat sep ((b :: cs) ++ [q])%list)%string.
  rewrite IH by discriminate. change (String.concat sep (a :: b :: cs)) with (a ++ sep ++ String.concat sep (b :: cs))%string.
  rewrite !A. reflexivity.
Qed.
Lemma parts_nonempty k l cs : parts k l cs -> cs <> [].
Proof.
  revert cs. induction l as [|b up IH]; intros cs; cbn; [tauto|]. destruct (root b k).
  - intros [_ ->]. discriminate.
  - intros (qs & q & _ & _ & [(cs' & H & ->)|(_ & _ & ->)]); [|discriminate]. apply IH in H. destruct cs'; [congruence|discriminate].
Qed.
Lemma full_parts k l p : In p (full_of sep k l) <-> exists cs, parts k l cs /\ p = String.concat sep cs.
Proof.
  revert p. induction l as [|b up IH]; intros p; cbn [full_of parts].
  - split; [intros []|intros (cs & [] & _)].
  - destruct (root b k) as [r|].
    + destruct (String.eqb_spec r "").
      * split; [intros []|]. intros (cs & (A & _) & _). contradiction.
      * cbn. split; [intros [<-|[]]; exists [r]; auto|]. intros (cs & (_ & ->) & ->). left; auto.
    + destruct (own b k) as [qs|].
      2:{ split; [intros []|]. intros (cs & (qs & q & A & _) & _). discriminate. }
      assert (N : full_of sep k up = [] <-> forall cs', ~ parts k up cs').
      { split.
        - intros E cs' H. assert (I : In (String.concat sep cs') (full_of sep k up)) by (apply IH; eauto). now rewrite E in I.
        - intros H. destruct (full_of sep k up) as [|x l]; auto. exfalso. destruct (proj1 (IH x) (or_introl eq_refl)) as (cs & P & _). eapply H; eauto. }
      rewrite in_flat_map. split.
      * intros (q & Q & I). destruct (full_of sep k up) as [|x l] eqn:E.
        -- destruct (String.eqb_spec q ""); [contradiction|]. destruct I as [<-|[]]. exists [q]. split; auto. exists qs, q. repeat split; auto. right. repeat split; auto. now apply N.
        -- rewrite <- E in *. apply in_map_iff in I. destruct I as (y & <- & I). apply IH in I. destruct I as (cs & P & ->).
           exists (cs ++ if String.eqb q "" then [] else [q])%list. split; [exists qs, q; repeat split; auto; left; eauto|].
           unfold under. destruct (String.eqb q ""); [now rewrite app_nil_r|]. rewrite concat_snoc; auto. eapply parts_nonempty; eauto.
      * intros (cs & (qs' & q & Eq & Q & H) & ->). injection Eq as <-. exists q. split; auto. destruct H as [(cs' & P & ->)|(P & Hq & ->)].
        -- assert (I : In (String.concat sep cs') (full_of sep k up)) by (apply IH; eauto). destruct (full_of sep k up) as [|x l] eqn:E; [contradiction|]. rewrite <- E in *.
           apply in_map_iff. exists (String.concat sep cs'). split; auto. unfold under. destruct (String.eqb q ""); [now rewrite app_nil_r|]. rewrite concat_snoc; auto. eapply parts_nonempty; eauto.
        -- apply N in P. rewrite P. destruct (String.eqb_spec q ""); [contradiction|]. now left.
Qed.
End Paths.
