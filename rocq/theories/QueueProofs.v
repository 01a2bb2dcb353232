From Coq Require Import ZArith List Bool Arith Lia ZifyBool ZifyNat.
From Verif Require Import Prelude PyList QueueModel QueueSpec.
Import ListNotations.
Open Scope Z_scope.

Section Proofs.
Context {A : Type}.
Implicit Types (l : list A) (x y : A).

Lemma zlen_len l : zlen l = len l. Proof. reflexivity. Qed.

Lemma nth_in_range l i : 0 <= i < len l -> exists x, nth_error l (Z.to_nat i) = Some x.
Proof.
  unfold len. intros H. destruct (nth_error l (Z.to_nat i)) eqn:E; eauto.
  apply nth_error_None in E. lia.
Qed.

Lemma at_pos_nat l (j : nat) x : at_pos l (Z.of_nat j) x <-> nth_error l j = Some x.
Proof. unfold at_pos. rewrite Nat2Z.id. split; [tauto|]. intros; split; [lia|auto]. Qed.

Lemma at_pos_range l i x : at_pos l i x -> 0 <= i < len l.
Proof.
  intros [H H1]. assert (nth_error l (Z.to_nat i) <> None) as H2 by congruence.
  apply nth_error_Some in H2. unfold len. lia.
Qed.

Lemma ins_ok l n x : (n <= length l)%nat -> inserted l (Z.of_nat n) x (ins_nth l n x).
Proof.
  intros H. split; [unfold len; rewrite ins_nth_length; lia|].
  intros j y. unfold at_pos. rewrite ins_nth_nth by auto.
  destruct (Nat.ltb_spec (Z.to_nat j) n); [|destruct (Nat.eqb_spec (Z.to_nat j) n)].
  - split.
    + intros [? ?]. left. split; [lia|]. auto.
    + intros [[? ?]|[[? ?]|[? ?]]]; [tauto|lia|lia].
  - split.
    + intros [? [= ->]]. right. left. split; [lia|auto].
    + intros [[? [? ?]]|[[? ?]|[? [? ?]]]]; [lia| |lia]. subst. split; [lia|auto].
  - split.
    + intros [? ?]. right. right. split; [lia|]. split; [lia|].
      replace (Z.to_nat (j - 1)) with (Z.to_nat j - 1)%nat by lia. auto.
    + intros [[? [? ?]]|[[? ?]|[? [? E]]]]; [lia|lia|].
      replace (Z.to_nat (j - 1)) with (Z.to_nat j - 1)%nat in E by lia. split; [lia|auto].
Qed.

Lemma del_ok l n : (n < length l)%nat -> removed l (Z.of_nat n) (del_nth l n).
Proof.
  intros H. split; [unfold len; pose proof (del_nth_length l n H); lia|].
  intros j y. unfold at_pos. rewrite del_nth_nth by auto.
  destruct (Nat.ltb_spec (Z.to_nat j) n).
  - split.
    + intros [? ?]. left. split; [lia|]. auto.
    + intros [[? ?]|[? [? ?]]]; [tauto|lia].
  - split.
    + intros [? E]. right. split; [lia|]. split; [lia|].
      replace (Z.to_nat (j + 1)) with (S (Z.to_nat j)) by lia. auto.
    + intros [[? [? ?]]|[? [? E]]]; [lia|].
      replace (Z.to_nat (j + 1)) with (S (Z.to_nat j)) in E by lia. split; [lia|auto].
Qed.

Lemma set_ok l n x : (n < length l)%nat -> replaced l (Z.of_nat n) x (set_nth l n x).
Proof.
  intros H. split; [unfold len; now rewrite set_nth_length by auto|].
  intros j y. unfold at_pos. rewrite set_nth_nth by auto.
  destruct (Nat.eqb_spec (Z.to_nat j) n).
  - split.
    + intros [? [= ->]]. right. split; [lia|auto].
    + intros [[? [? ?]]|[? ?]]; [lia|]. subst y. split; [lia|auto].
  - split.
    + intros [? ?]. left. split; [lia|auto].
    + intros [[? [? ?]]|[? ?]]; [auto|lia].
Qed.

Lemma py_pos_spec l i :
  match py_pos l i with
  | Some n => designates l i (Z.of_nat n) /\ (n < length l)%nat
  | None => ~ exists p, designates l i p
  end.
Proof.
  unfold py_pos, designates, zlen, len.
  destruct (_ && _) eqn:E; [|destruct ((- _ <=? i) && _) eqn:E2].
  - split; lia.
  - split; lia.
  - intros [p H]. lia.
Qed.

Lemma ins_at0 l x : py_insert l 0 x = ins_nth l 0 x.
Proof. unfold py_insert. cbn [Z.ltb Z.compare]. now rewrite Nat.min_0_l. Qed.

Lemma app_ins l x : l ++ [x] = ins_nth l (length l) x.
Proof. unfold ins_nth. now rewrite firstn_all, skipn_all. Qed.

Lemma step_ok l o : seq_call l o (fst (qstep l o)) (snd (qstep l o)).
Proof.
  destruct o; cbn [qstep seq_call fst snd]; auto.
  - (* get *) split; auto. unfold q_get. change (@zlen A) with (@len A).
    destruct (_ || _) eqn:E.
    + right. split; [lia|auto].
    + left. unfold py_get. rewrite py_pos_nonneg by lia. change (@zlen A) with (@len A).
      replace (i <? len l) with true by lia.
      destruct (nth_in_range l i) as [x Hx]; [lia|]. rewrite Hx. exists x.
      split; auto. split; [lia|auto].
  - (* setitem *) unfold q_setitem, py_set. pose proof (py_pos_spec l i) as HP.
    destruct (i <? zlen l) eqn:E.
    + destruct (py_pos l i) as [n|]; cbn.
      * left. exists (Z.of_nat n). destruct HP. split; [auto|]. split; auto. now apply set_ok.
      * right. auto.
    + right. cbn. split; auto. intros [p Hp]. unfold zlen in E. unfold designates, len in Hp. lia.
  - (* getitem *) split; auto. unfold q_getitem, py_get. pose proof (py_pos_spec l i) as HP.
    destruct (i <? zlen l) eqn:E.
    + destruct (py_pos l i) as [n|].
      * left. destruct HP as [H1 H2].
        destruct (nth_in_range l (Z.of_nat n)) as [x Hx]; [unfold len; lia|].
        rewrite Nat2Z.id in Hx. rewrite Hx. exists (Z.of_nat n), x. split; auto.
        split; auto. now apply at_pos_nat.
      * right. auto.
    + right. cbn. split; auto. intros [p Hp]. unfold zlen in E. unfold designates, len in Hp. lia.
  - (* insert *) split; auto. unfold q_insert. change (@zlen A) with (@len A). destruct (_ || _) eqn:E.
    + right. split; [lia|auto].
    + left. split; [lia|]. unfold py_insert. replace (i <? 0) with false by lia.
      unfold len in E. replace (Nat.min (Z.to_nat i) (length l)) with (Z.to_nat i) by lia.
      replace i with (Z.of_nat (Z.to_nat i)) at 1 by lia. apply ins_ok. lia.
  - (* delete *) split; auto. unfold q_delete. change (@zlen A) with (@len A).
    destruct (_ || _) eqn:E.
    + right; right. unfold len in *. repeat split; lia.
    + destruct (i =? -1) eqn:E1; [left; split; [lia|auto]|]. right; left. split; [lia|].
      unfold py_del. rewrite py_pos_nonneg by lia. change (@zlen A) with (@len A).
      replace (i <? len l) with true by lia.
      replace i with (Z.of_nat (Z.to_nat i)) at 1 by lia. apply del_ok. unfold len in *. lia.
  - (* pop_front *) unfold q_pop_front. destruct l as [|x l]; cbn [fst snd]; auto.
    left. exists x. split; [split; [lia|reflexivity]|]. split; auto.
    change 0 with (Z.of_nat 0). change l with (del_nth (x :: l) 0) at 2. apply del_ok. cbn; lia.
  - (* front *) split; auto. unfold q_front. destruct l as [|x l]; auto.
    left. exists x. split; [split; [lia|reflexivity]|reflexivity].
  - (* back *) split; auto. unfold q_back. destruct l as [|x l]; [now right|].
    remember (x :: l) as q. assert (0 < len q) by (subst; unfold len; cbn; lia).
    change (@zlen A) with (@len A). replace (0 <? len q) with true by lia. left.
    destruct (nth_in_range q (len q - 1)) as [z Hz]; [lia|]. exists z.
    split; [split; [lia|auto]|]. unfold py_get. rewrite py_pos_nonneg by lia. change (@zlen A) with (@len A).
    replace (_ <? _) with true by lia. now rewrite Hz.
  - (* pop_back *) unfold q_pop_back, py_get, py_del.
    destruct l as [|x l]; [right; cbn; auto|].
    remember (x :: l) as q. assert (H : 0 < len q) by (subst; unfold len; cbn; lia).
    assert (E : py_pos q (-1) = Some (Z.to_nat (len q - 1))).
    { unfold py_pos. change (@zlen A) with (@len A). replace (_ && _) with false by lia.
      replace (_ && _) with true by lia. reflexivity. }
    rewrite E. destruct (nth_in_range q (len q - 1)) as [z Hz]; [lia|]. rewrite Hz. cbn [fst snd].
    left. exists z. split; [split; [lia|auto]|]. split; auto.
    replace (len q - 1) with (Z.of_nat (Z.to_nat (len q - 1))) at 1 by lia.
    apply del_ok. unfold len in *. lia.
  - (* push_front *) split; auto. unfold q_push_front. rewrite ins_at0.
    change 0 with (Z.of_nat 0). apply ins_ok. lia.
  - (* push_back *) split; auto. unfold q_push_back. rewrite app_ins. apply ins_ok. lia.
Qed.

Lemma run_ok os : forall l, seq_hist l os (fst (qrun l os)) (snd (qrun l os)).
Proof.
  induction os as [|o os IH]; intros l; cbn [qrun].
  - constructor.
  - pose proof (step_ok l o) as H. destruct (qstep l o) as [l1 r]. cbn [fst snd] in H.
    specialize (IH l1). destruct (qrun l1 os). cbn [fst snd] in *. econstructor; eauto.
Qed.

(** The specification determines contents and results (slices excepted). *)
Lemma at_pos_ext l1 l2 : (forall j y, at_pos l1 j y <-> at_pos l2 j y) -> l1 = l2.
Proof.
  intros H. apply nth_error_ext. intros j.
  destruct (nth_error l1 j) eqn:E1.
  - apply at_pos_nat in E1. apply H in E1. apply at_pos_nat in E1. congruence.
  - destruct (nth_error l2 j) eqn:E2; auto.
    apply at_pos_nat in E2. apply H in E2. apply at_pos_nat in E2. congruence.
Qed.

Lemma at_pos_fun l i x y : at_pos l i x -> at_pos l i y -> x = y.
Proof. unfold at_pos. intros [? ?] [? ?]. congruence. Qed.

Lemma inserted_fun l i x l1 l2 : inserted l i x l1 -> inserted l i x l2 -> l1 = l2.
Proof. intros [_ H1] [_ H2]. apply at_pos_ext. intros. now rewrite H1, H2. Qed.
Lemma removed_fun l i l1 l2 : removed l i l1 -> removed l i l2 -> l1 = l2.
Proof. intros [_ H1] [_ H2]. apply at_pos_ext. intros. now rewrite H1, H2. Qed.
Lemma replaced_fun l i x l1 l2 : replaced l i x l1 -> replaced l i x l2 -> l1 = l2.
Proof. intros [_ H1] [_ H2]. apply at_pos_ext. intros. now rewrite H1, H2. Qed.
Lemma designates_fun l i p q : designates l i p -> designates l i q -> p = q.
Proof. unfold designates. lia. Qed.

Lemma seq_call_fun l o l1 r1 l2 r2 :
  seq_call l o l1 r1 -> seq_call l o l2 r2 -> l1 = l2 /\ r1 = r2.
Proof.
  destruct o; cbn [seq_call]; intros H1 H2.
  - destruct H1 as [-> [(x & Hx & ->)|[? ->]]], H2 as [-> [(y & Hy & ->)|[? ->]]]; split; auto.
    + f_equal. eapply at_pos_fun; eauto.
    + apply at_pos_range in Hx. tauto.
    + apply at_pos_range in Hy. tauto.
  - destruct H1, H2; subst; auto.
  - destruct H1 as [(p & D1 & R1 & ->)|(N1 & -> & ->)], H2 as [(q & D2 & R2 & ->)|(N2 & -> & ->)].
    + pose proof (designates_fun _ _ _ _ D1 D2). subst. split; auto. eapply replaced_fun; eauto.
    + exfalso; eauto.
    + exfalso; eauto.
    + auto.
  - destruct H1 as [-> [(p & x & D1 & R1 & ->)|(N1 & ->)]], H2 as [-> [(q & y & D2 & R2 & ->)|(N2 & ->)]].
    + pose proof (designates_fun _ _ _ _ D1 D2). subst. split; auto. f_equal. eapply at_pos_fun; eauto.
    + exfalso; eauto.
    + exfalso; eauto.
    + auto.
  - destruct H1 as [-> [[? H1]|[? ->]]], H2 as [-> [[? H2]|[? ->]]]; try tauto.
    split; auto. eapply inserted_fun; eauto.
  - destruct H1 as [-> H1], H2 as [-> H2]. split; auto.
    destruct H1 as [[? ->]|[[? ?]|(? & ? & ->)]], H2 as [[? ->]|[[? ?]|(? & ? & ->)]]; auto; try lia.
    eapply removed_fun; eauto.
  - destruct H1 as [(x & P1 & R1 & ->)|(-> & -> & ->)], H2 as [(y & P2 & R2 & ->)|(? & -> & ->)]; subst.
    + split; [eapply removed_fun; eauto|f_equal; eapply at_pos_fun; eauto].
    + destruct P1 as [_ E]. now destruct (Z.to_nat 0).
    + destruct P2 as [_ E]. now destruct (Z.to_nat 0).
    + auto.
  - destruct H1 as [-> [(x & P1 & ->)|(-> & ->)]], H2 as [-> [(y & P2 & ->)|(E & ->)]]; split; auto.
    + f_equal. eapply at_pos_fun; eauto.
    + subst. destruct P1 as [_ E]. now destruct (Z.to_nat 0).
    + destruct P2 as [_ E]. now destruct (Z.to_nat 0).
  - destruct H1 as [-> [(x & P1 & ->)|(-> & ->)]], H2 as [-> [(y & P2 & ->)|(E & ->)]]; split; auto.
    + f_equal. eapply at_pos_fun; eauto.
    + subst. destruct P1 as [_ E]. now destruct (Z.to_nat _).
    + destruct P2 as [_ E]. now destruct (Z.to_nat _).
  - destruct H1 as [(x & P1 & R1 & ->)|(-> & -> & ->)], H2 as [(y & P2 & R2 & ->)|(? & -> & ->)]; subst.
    + split; [eapply removed_fun; eauto|f_equal; eapply at_pos_fun; eauto].
    + destruct P1 as [_ E]. now destruct (Z.to_nat _).
    + destruct P2 as [_ E]. now destruct (Z.to_nat _).
    + auto.
  - destruct H1 as [-> ?], H2 as [-> ?]. split; auto. eapply inserted_fun; eauto.
  - destruct H1 as [-> ?], H2 as [-> ?]. split; auto. eapply inserted_fun; eauto.
  - destruct H1, H2; subst; auto.
Qed.

Lemma refines os l l' rs :
  seq_hist l os l' rs <-> qrun l os = (l', rs).
Proof.
  split.
  - intros H. pose proof (run_ok os l) as H2.
    enough (l' = fst (qrun l os) /\ rs = snd (qrun l os)) as [-> ->] by now destruct (qrun l os).
    revert H2. generalize (fst (qrun l os)) (snd (qrun l os)).
    induction H as [l|l o os l1 r l2 rs H1 H IH]; intros l3 rs3 H3; inversion H3; subst; auto.
    match goal with H1 : seq_call l o l1 r, H2 : seq_call l o _ _ |- _ =>
      destruct (seq_call_fun l o _ _ _ _ H1 H2); subst end.
    edestruct IH as [-> ->]; eauto.
  - intros H. pose proof (run_ok os l) as H2. now rewrite H in H2.
Qed.

(** Searches *)
Lemma find_loop_app (f : A -> bool) rest : forall qq, find_loop f rest qq = qq ++ filter f rest.
Proof.
  induction rest as [|x rest IH]; intros qq; cbn [find_loop filter].
  - now rewrite app_nil_r.
  - rewrite IH. destruct (f x); auto. unfold q_push_back. now rewrite <- app_assoc.
Qed.

Lemma first_index_spec (f : A -> bool) : forall rest i, 0 <= i ->
  let r := first_index_loop f i rest in
  (r = -1 /\ forall x, In x rest -> f x = false) \/
  (i <= r /\ (exists x, nth_error rest (Z.to_nat (r - i)) = Some x /\ f x = true) /\
   forall j y, (j < Z.to_nat (r - i))%nat -> nth_error rest j = Some y -> f y = false).
Proof.
  induction rest as [|x rest IH]; intros i Hi; cbn [first_index_loop]; cbv zeta.
  - left. split; auto. intros ? [].
  - destruct (f x) eqn:E.
    + right. split; [lia|]. split.
      * exists x. now rewrite Z.sub_diag.
      * intros j y Hj. rewrite Z.sub_diag in Hj. cbn in Hj. lia.
    + destruct (IH (i + 1)) as [[-> H]|(H1 & (y & Hy & Hf) & H3)]; [lia| |].
      * left. split; auto. intros z [<-|Hz]; auto.
      * right. set (r := first_index_loop f (i + 1) rest) in *.
        assert (Z.to_nat (r - i) = S (Z.to_nat (r - (i + 1)))) as R by lia.
        split; [lia|]. rewrite R. split; [exists y; auto|].
        intros [|j] z Hj Hz; cbn in Hz; [congruence|]. eapply H3; eauto. lia.
Qed.

(** Several objects *)
Definition HInv (n : nat) (h : heap A) : Prop :=
  (forall q, (q < n)%nat -> (qref h q < fresh h)%nat) /\
  (forall q r, (q < n)%nat -> (r < n)%nat -> qref h q = qref h r -> q = r).

Lemma hstep_ok n h q o : (q < n)%nat -> HInv n h ->
  let h' := fst (hstep h (HOp q o)) in
  HInv n h' /\
  forall r, (r < n)%nat -> contents h' r =
     if Nat.eqb q r then fst (qstep (contents h r) o) else contents h r.
Proof.
  intros Hq [H1 H2]. cbn [hstep]. unfold contents.
  destruct (qstep (store h (qref h q)) o) as [l' r] eqn:ES.
  assert (D : o = QDelete (-1) \/
    fst (match o with
    | QDelete (-1) => (Heap (upd (store h) (fresh h) l') (upd (qref h) q (fresh h)) (S (fresh h)), [r])
    | _ => (Heap (upd (store h) (qref h q) l') (qref h) (fresh h), [r])
    end) = Heap (upd (store h) (qref h q) l') (qref h) (fresh h)).
  { destruct o; auto. destruct i; auto. destruct p; auto. }
  destruct D as [->|D].
  - cbn [fst]. split; [split|].
    + intros r0 Hr. cbn. unfold upd. destruct (Nat.eqb_spec r0 q); [lia|]. specialize (H1 r0 Hr). lia.
    + intros r0 r1 Hr0 Hr1. cbn. unfold upd.
      destruct (Nat.eqb_spec r0 q), (Nat.eqb_spec r1 q); subst; auto; intros E.
      * specialize (H1 r1 Hr1). lia.
      * specialize (H1 r0 Hr0). lia.
    + intros r0 Hr. cbn [store qref]. unfold upd at 2. destruct (Nat.eqb_spec r0 q).
      * subst. rewrite upd_eq, Nat.eqb_refl, ES. reflexivity.
      * destruct (Nat.eqb_spec q r0); [congruence|]. apply upd_neq. specialize (H1 r0 Hr). lia.
  - rewrite D. split; [split; auto|].
    intros r0 Hr. cbn [store qref]. destruct (Nat.eqb_spec q r0).
    + subst. now rewrite upd_eq, ES.
    + apply upd_neq. intros E. apply n0. symmetry. now apply H2.
Qed.

Lemma independent_gen n os : Forall (no_copy_below n) os -> forall h, HInv n h ->
  forall q, (q < n)%nat ->
  contents (fst (run_machine hstep h os)) q = fst (qrun (contents h q) (calls_on q os)).
Proof.
  induction os as [|o os IH]; intros HF h HI q Hq; cbn [run_machine calls_on]; auto.
  inversion HF as [|? ? Ho Hos]; subst. destruct o as [q0 o|]; cbn in Ho; [|easy].
  destruct (hstep_ok n h q0 o Ho HI) as [HI' HC].
  destruct (hstep h (HOp q0 o)) as [h1 o1]. cbn [fst] in *.
  specialize (IH Hos h1 HI' q Hq). destruct (run_machine hstep h1 os). cbn [fst] in *.
  rewrite IH, (HC q Hq). destruct (Nat.eqb q0 q); auto.
  cbn [qrun]. destruct (qstep (contents h q) o) as [l1 r1]. cbn [fst].
  now destruct (qrun l1 (calls_on q os)).
Qed.

Lemma independent n (os : list (hop A)) q : Forall (no_copy_below n) os -> (q < n)%nat ->
  contents (fst (hrun n os)) q = fst (qrun [] (calls_on q os)).
Proof.
  intros HF Hq. apply (independent_gen n os HF (heap0 n)); auto.
  split; cbn; auto.
Qed.

End Proofs.
