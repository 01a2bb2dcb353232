From Coq Require Import ZArith List Bool Arith Lia Permutation.
From Verif Require Import RegFieldModel RegModel RegMapModel RegMapSpec.
Import ListNotations.
Open Scope Z_scope.

(** ** Word counts *)
Lemma words_needs n w : 0 < w -> needs_words n w (words n w).
Proof.
  intros Hw. unfold needs_words, words.
  pose proof (Z.div_mod (n - 1) w ltac:(lia)).
  pose proof (Z.mod_pos_bound (n - 1) w Hw). nia.
Qed.
Lemma needs_words_fun n w q q' : 0 < w -> needs_words n w q -> needs_words n w q' -> q = q'.
Proof. unfold needs_words. intros. nia. Qed.
Lemma words_eq n w q : 0 < w -> needs_words n w q -> q = words n w.
Proof. intros Hw H. eapply needs_words_fun; eauto using words_needs. Qed.
Lemma words_pos n w : 0 < w -> 0 < n -> 1 <= words n w.
Proof. intros Hw Hn. pose proof (words_needs n w Hw) as [? ?]. nia. Qed.
Lemma words_one n w : 0 < w -> 0 < n -> n <= w -> words n w = 1.
Proof.
  intros. symmetry. apply words_eq; [lia|]. unfold needs_words. lia.
Qed.
Lemma words_many n w : 0 < w -> w < n -> 2 <= words n w.
Proof. intros Hw Hn. pose proof (words_needs n w Hw) as [? ?]. nia. Qed.
Lemma scale_words l u : 0 < lw l -> 0 < lw u -> scale l u = words (lw l) (lw u).
Proof.
  intros Hl Hu. unfold scale. destruct (lw l <? lw u) eqn:E; [|reflexivity].
  apply Z.ltb_lt in E. symmetry. apply words_one; lia.
Qed.
Lemma mult_pos l : 0 < lw l -> 0 < mult l.
Proof. unfold mult. destruct (lbyte l); lia. Qed.

Lemma in_zrange i n : In i (zrange n) <-> 0 <= i < n.
Proof.
  unfold zrange. rewrite in_map_iff. split.
  - intros (k & <- & H). apply in_seq in H. lia.
  - intros H. exists (Z.to_nat i). split; [lia|]. apply in_seq. lia.
Qed.
Lemma zrange_length n : Z.of_nat (length (zrange n)) = Z.max 0 n.
Proof. unfold zrange. rewrite map_length, seq_length. lia. Qed.
Lemma zrange_nodup n : NoDup (zrange n).
Proof.
  unfold zrange. apply FinFun.Injective_map_NoDup; [intros a b; lia|apply seq_NoDup].
Qed.

(** ** Local addresses *)
Lemma local_in l base moff n y :
  usable l -> 0 < n ->
  (In y (local_addrs l base moff n) <->
   word_of l (base + moff * (words n (lw l) * mult l)) n y).
Proof.
  intros [Hw He] Hn. unfold local_addrs, word_of.
  assert (W : needs_words n (lw l) (words n (lw l))) by (apply words_needs; lia).
  destruct (n <=? lw l) eqn:E.
  - apply Z.leb_le in E. pose proof (words_one n (lw l) Hw Hn E) as W1.
    rewrite W1 in *. cbn [In]. split.
    + intros [<-|[]]. exists 1, 0. split; [exact W|]. split; lia.
    + intros (q & i & Hq & Hi & ->). left.
      assert (q = 1) by (eapply needs_words_fun; [|exact Hq|exact W]; lia). subst q.
      replace i with 0 by lia. lia.
  - assert (G : (exists i, 0 <= i < words n (lw l) /\
                  y = base + moff * (words n (lw l) * mult l) + i * mult l) <->
                (exists q i, needs_words n (lw l) q /\ 0 <= i < q /\
                  y = base + moff * (words n (lw l) * mult l) + i * mult l)).
    { split.
      - intros (i & ? & ?). exists (words n (lw l)), i. auto.
      - intros (q & i & Hq & ? & ?). exists i.
        pose proof (words_eq _ _ _ Hw Hq) as Eq. rewrite <- Eq in *. auto. }
    rewrite <- G. destruct He as [He|He]; rewrite He; rewrite in_map_iff.
    + split; intros (i & Hy & Hi); exists i; [apply in_zrange in Hi|];
        split; auto; try (apply in_zrange; lia); lia.
    + split.
      * intros (i & Hy & Hi). apply in_zrange in Hi.
        exists (words n (lw l) - 1 - i). split; lia.
      * intros (i & Hi & Hy). exists (words n (lw l) - 1 - i).
        split; [lia|]. apply in_zrange. lia.
Qed.

Lemma local_length l base moff n :
  usable l -> 0 < n ->
  Z.of_nat (length (local_addrs l base moff n)) = words n (lw l).
Proof.
  intros [Hw He] Hn. unfold local_addrs. destruct (n <=? lw l) eqn:E.
  - apply Z.leb_le in E. now rewrite words_one by lia.
  - pose proof (words_pos n (lw l) Hw Hn).
    destruct He as [He|He]; rewrite He, map_length, zrange_length; lia.
Qed.

Lemma local_nodup l base moff n :
  usable l -> NoDup (local_addrs l base moff n).
Proof.
  intros [Hw He]. pose proof (mult_pos l Hw). unfold local_addrs.
  destruct (n <=? lw l); [repeat constructor; auto|].
  destruct He as [He|He]; rewrite He;
    (apply FinFun.Injective_map_NoDup; [intros a b; nia|apply zrange_nodup]).
Qed.

Lemma local_nonempty l base moff n :
  usable l -> 0 < n -> local_addrs l base moff n <> [].
Proof.
  intros Hu Hn E. pose proof (local_length l base moff n Hu Hn) as L.
  rewrite E in L. cbn in L. destruct Hu as [Hw _].
  pose proof (words_pos n (lw l) Hw Hn). lia.
Qed.

(** ** The addresses as they would be without the shared accumulator *)
Fixpoint ideal (l : level) (up : list level) (base moff n : Z) : list Z :=
  match up with
  | [] => map (fun a => a + loff l) (local_addrs l base moff n)
  | u :: up' =>
      flat_map (fun a => ideal u up' (loff l + a * scale l u) 0 (lw l))
               (local_addrs l base moff n)
  end.

Lemma phys_root l base moff n addr :
  0 < n -> phys [l] base moff n addr = (ideal l [] base moff n, lw l).
Proof. intros Hn. cbn. destruct (Z.leb_spec n 0); [lia|reflexivity]. Qed.

Definition phys_step (l u : level) (up : list level) :=
  fun (acc : list Z * list Z * Z) a =>
    let '(ad, sys, _) := acc in
    let '(sys', w') := phys (u :: up) (loff l + a * scale l u) 0 (lw l) sys in
    (ad ++ sys', sys', w').
Lemma phys_cons l u up base moff n addr :
  0 < n ->
  phys (l :: u :: up) base moff n addr =
  let '(addr', _, w) :=
    fold_left (phys_step l u up) (local_addrs l base moff n) (addr, [], 0) in
  (addr', if w <? lw l then w else lw l).
Proof.
  intros Hn. cbn [phys]. destruct (Z.leb_spec n 0); [lia|]. reflexivity.
Qed.

(** Membership is that of the ideal list, whatever the accumulator does. *)
Lemma phys_in l up base moff n addr x :
  Forall usable (l :: up) -> 0 < n ->
  (In x (fst (phys (l :: up) base moff n addr)) <->
   (up <> [] /\ In x addr) \/ In x (ideal l up base moff n)).
Proof.
  revert l base moff n addr x. induction up as [|u up IH];
    intros l base moff n addr x Hu Hn.
  - rewrite phys_root by auto. cbn [fst]. split; [auto|].
    intros [[H _]|H]; [congruence|auto].
  - rewrite phys_cons by auto. inversion Hu as [|? ? Ul Uu]; subst.
    cbn [ideal].
    assert (G : forall loc ad sys w,
      (forall z, In z sys -> up <> [] -> In z ad) ->
      forall z, In z (fst (fst (fold_left (phys_step l u up) loc (ad, sys, w)))) <->
        In z ad \/ In z (flat_map (fun a => ideal u up (loff l + a * scale l u) 0 (lw l)) loc)).
    { induction loc as [|a loc IHl]; intros ad sys w Hs z; cbn [fold_left flat_map].
      - cbn. tauto.
      - unfold phys_step at 2.
        destruct (phys (u :: up) (loff l + a * scale l u) 0 (lw l) sys) as [sys' w'] eqn:E.
        assert (M : forall z, In z sys' <->
          (up <> [] /\ In z sys) \/ In z (ideal u up (loff l + a * scale l u) 0 (lw l))).
        { intros z0. rewrite <- IH; [|assumption|destruct Ul; lia]. rewrite E. reflexivity. }
        rewrite IHl.
        + rewrite !in_app_iff, M. split; [|tauto].
          intros [[H|[[H1 H2]|H]]|H]; auto.
        + intros z0 H0 _. apply in_or_app. auto. }
    specialize (G (local_addrs l base moff n) addr [] 0 ltac:(intros ? []) x).
    destruct (fold_left (phys_step l u up) (local_addrs l base moff n) (addr, [], 0))
      as [[ad sys] w]. cbn [fst] in *. rewrite G.
    intuition congruence.
Qed.

Lemma gpa_in l up base moff n x :
  Forall usable (l :: up) -> 0 < n ->
  (In x (get_physical_addresses (l :: up) base moff n) <->
   In x (ideal l up base moff n)).
Proof.
  intros Hu Hn. unfold get_physical_addresses. rewrite phys_in by auto. cbn. tauto.
Qed.

Lemma ideal_address_of l up base n x :
  Forall usable (l :: up) -> 0 < n ->
  (In x (ideal l up base 0 n) <-> address_of l up base n x).
Proof.
  revert l base n x. induction up as [|u up IH]; intros l base n x Hu Hn;
    inversion Hu as [|? ? Ul Uu]; subst; unfold address_of.
  - cbn [ideal lifted]. rewrite in_map_iff. split.
    + intros (y & Hx & Hy). apply local_in in Hy; auto.
      exists y. rewrite Z.mul_0_l, Z.add_0_r in Hy. auto.
    + intros (y & Hy & Hx). exists y. split; [auto|].
      apply local_in; auto. now rewrite Z.mul_0_l, Z.add_0_r.
  - cbn [ideal lifted]. rewrite in_flat_map.
    assert (Wu : 0 < lw u) by (inversion Uu as [|? ? [] ?]; auto).
    assert (Wl : 0 < lw l) by (destruct Ul; auto).
    split.
    + intros (y & Hy & Hx). apply local_in in Hy; auto.
      rewrite Z.mul_0_l, Z.add_0_r in Hy. exists y. split; [exact Hy|].
      apply IH in Hx; [|assumption|lia]. destruct Hx as (z & Hz & Hx).
      exists (words (lw l) (lw u)), z. rewrite <- scale_words by lia.
      rewrite scale_words at 1 by lia. split; [apply words_needs; lia|]. auto.
    + intros (y & Hy & k & z & Hk & Hz & Hx). exists y. split.
      * apply local_in; auto. now rewrite Z.mul_0_l, Z.add_0_r.
      * apply IH; [assumption|lia|]. exists z. split; [|auto].
        rewrite scale_words by lia. rewrite <- (words_eq _ _ _ Wu Hk). exact Hz.
Qed.

Lemma phys_address_of l up base n x :
  Forall usable (l :: up) -> 0 < n ->
  (In x (get_physical_addresses (l :: up) base 0 n) <-> address_of l up base n x).
Proof. intros. rewrite gpa_in by auto. now apply ideal_address_of. Qed.

(** ** Separation *)
Fixpoint sep_ok (s : Z) (l : level) (up : list level) : Prop :=
  match up with
  | [] => True
  | u :: up' =>
      let k := words (lw l) (lw u) in
      (k = 1 /\ sep_ok s u up') \/ (k * mult u <= s * k /\ sep_ok (mult u) u up')
  end.

Lemma lifted_sep l up s y1 y2 x :
  Forall usable (l :: up) -> 1 <= s -> sep_ok s l up ->
  lifted l up y1 x -> lifted l up y2 x -> s <= Z.abs (y1 - y2) -> False.
Proof.
  revert l s y1 y2 x. induction up as [|u up IH]; intros l s y1 y2 x Hu Hs Hok H1 H2 Hd;
    inversion Hu as [|? ? Ul Uu]; subst; cbn [lifted sep_ok] in *.
  - lia.
  - destruct H1 as (k1 & z1 & K1 & (q1 & i1 & Q1 & I1 & E1) & L1).
    destruct H2 as (k2 & z2 & K2 & (q2 & i2 & Q2 & I2 & E2) & L2).
    assert (Wu : 0 < lw u) by (inversion Uu as [|? ? [] ?]; auto).
    assert (Wl : 0 < lw l) by (destruct Ul; auto).
    pose proof (words_eq _ _ _ Wu K1). pose proof (words_eq _ _ _ Wu K2).
    pose proof (words_eq _ _ _ Wu Q1). pose proof (words_eq _ _ _ Wu Q2).
    set (k := words (lw l) (lw u)) in *. subst k1 k2 q1 q2.
    pose proof (mult_pos u Wu) as Mu.
    destruct Hok as [[Hk Hok]|[Hk Hok]].
    + apply (IH u s z1 z2 x); auto. rewrite Hk in *.
      replace i1 with 0 in * by lia. replace i2 with 0 in * by lia. lia.
    + apply (IH u (mult u) z1 z2 x); auto; [lia|].
      assert (0 < k) by lia.
      assert (k * mult u <= Z.abs (y1 - y2) * k) by nia.
      assert (Hi : Z.abs (i1 - i2) * mult u <= (k - 1) * mult u) by nia.
      assert (Z.abs ((i1 - i2) * mult u) = Z.abs (i1 - i2) * mult u) by (rewrite Z.abs_mul; lia).
      assert (Z.abs ((y1 - y2) * k) = Z.abs (y1 - y2) * k) by (rewrite Z.abs_mul; lia).
      lia.
Qed.

Lemma uniform_sep l up :
  Forall usable (l :: up) -> uniform l up -> sep_ok (mult l) l up.
Proof.
  revert l. induction up as [|u up IH]; intros l Hu Hun; [exact I|].
  inversion Hu as [|? ? Ul Uu]; subst.
  assert (Wu : 0 < lw u) by (inversion Uu as [|? ? [] ?]; auto).
  assert (Wl : 0 < lw l) by (destruct Ul; auto).
  cbn [sep_ok]. right. destruct Hun as [Hw|[Hb Hn]].
  - inversion Hw as [|? ? A B]; inversion B as [|? ? C D]; subst. split.
    + unfold mult. rewrite A, C. lia.
    + apply IH; [assumption|]. left. assumption.
  - inversion Hb as [|? ? A B]; inversion B as [|? ? C D]; subst. destruct Hn as [Hn1 Hn2].
    split.
    + unfold mult. rewrite A, C. pose proof (words_pos (lw l) (lw u) Wu ltac:(lia)). nia.
    + apply IH; [assumption|]. right. split; assumption.
Qed.

Lemma word_distance l base1 n1 base2 n2 y1 y2 :
  0 < lw l ->
  (forall o, occupies l base1 n1 o -> occupies l base2 n2 o -> False) ->
  word_of l base1 n1 y1 -> word_of l base2 n2 y2 -> mult l <= Z.abs (y1 - y2).
Proof.
  intros Hw Hd (q1 & i1 & Q1 & I1 & ->) (q2 & i2 & Q2 & I2 & ->).
  pose proof (mult_pos l Hw) as M.
  destruct (Z_lt_le_dec (Z.abs (base1 + i1 * mult l - (base2 + i2 * mult l))) (mult l)); [|lia].
  exfalso.
  (* a common offset: the larger of the two words' starts *)
  apply (Hd (Z.max (base1 + i1 * mult l) (base2 + i2 * mult l))).
  - exists q1. split; [auto|]. nia.
  - exists q2. split; [auto|]. nia.
Qed.

Lemma disjoint_addresses l up base1 n1 base2 n2 x :
  Forall usable (l :: up) -> uniform l up -> 0 < n1 -> 0 < n2 ->
  (forall o, occupies l base1 n1 o -> occupies l base2 n2 o -> False) ->
  In x (get_physical_addresses (l :: up) base1 0 n1) ->
  In x (get_physical_addresses (l :: up) base2 0 n2) -> False.
Proof.
  intros Hu Hun H1 H2 Hd I1 I2.
  apply phys_address_of in I1; auto. apply phys_address_of in I2; auto.
  destruct I1 as (y1 & W1 & L1). destruct I2 as (y2 & W2 & L2).
  assert (Wl : 0 < lw l) by (inversion Hu as [|? ? [] ?]; auto).
  apply (lifted_sep l up (mult l) y1 y2 x); auto using uniform_sep.
  - pose proof (mult_pos l Wl). lia.
  - eapply word_distance; eauto.
Qed.

(** ** No duplicates *)
Lemma NoDup_flat_map {A B} (f : A -> list B) (l : list A) :
  NoDup l -> (forall a, In a l -> NoDup (f a)) ->
  (forall a b x, In a l -> In b l -> In x (f a) -> In x (f b) -> a = b) ->
  NoDup (flat_map f l).
Proof.
  induction l as [|a l IH]; intros Hn Hf Hd; cbn [flat_map]; [constructor|].
  inversion Hn as [|? ? Ha Hl]; subst.
  assert (D : forall x, In x (f a) -> ~ In x (flat_map f l)).
  { intros x Hx Hin. apply in_flat_map in Hin as (b & Hb & Hxb).
    apply Ha. rewrite (Hd a b x); cbn; auto. }
  assert (N2 : NoDup (flat_map f l)).
  { apply IH; [assumption| |]; intros; [apply Hf; now right|].
    eapply Hd; eauto; now right. }
  specialize (Hf a (or_introl eq_refl)). revert Hf D.
  generalize (f a) as la. induction la as [|x la IHla]; intros Hf D; cbn; [auto|].
  inversion Hf; subst. constructor.
  - rewrite in_app_iff. intros [?|?]; [contradiction|]. apply (D x); cbn; auto.
  - apply IHla; auto. intros z Hz. apply D. now right.
Qed.

Lemma ideal_nodup l up base n :
  Forall usable (l :: up) -> uniform l up -> 0 < n ->
  NoDup (ideal l up base 0 n).
Proof.
  revert l base n. induction up as [|u up IH]; intros l base n Hu Hun Hn;
    inversion Hu as [|? ? Ul Uu]; subst; cbn [ideal].
  - apply FinFun.Injective_map_NoDup; [intros a b; lia|]. now apply local_nodup.
  - assert (Wu : 0 < lw u) by (inversion Uu as [|? ? [] ?]; auto).
    assert (Wl : 0 < lw l) by (destruct Ul; auto).
    pose proof (mult_pos l Wl) as Ml.
    apply NoDup_flat_map.
    + now apply local_nodup.
    + intros a Ha. apply IH; [assumption| |lia].
      destruct Hun as [Hw|[Hb Hn1]]; [left|right].
      * inversion Hw; assumption.
      * inversion Hb; destruct Hn1; split; assumption.
    + intros a b x Ha Hb Hxa Hxb.
      destruct (Z.eq_dec a b) as [|Hne]; [auto|]. exfalso.
      apply local_in in Ha; auto. apply local_in in Hb; auto.
      apply ideal_address_of in Hxa; [|assumption|lia].
      apply ideal_address_of in Hxb; [|assumption|lia].
      eapply (lifted_sep l (u :: up) (mult l) a b x); auto using uniform_sep; [lia| | |].
      * cbn [lifted]. destruct Hxa as (z & Hz & Lz).
        exists (scale l u), z. rewrite scale_words at 1 by lia.
        split; [apply words_needs; lia|]. auto.
      * cbn [lifted]. destruct Hxb as (z & Hz & Lz).
        exists (scale l u), z. rewrite scale_words at 1 by lia.
        split; [apply words_needs; lia|]. auto.
      * destruct Ha as (q1 & i1 & Q1 & I1 & ->). destruct Hb as (q2 & i2 & Q2 & I2 & ->).
        assert (i1 <> i2) by congruence.
        assert (E : base + 0 * (words n (lw l) * mult l) + i1 * mult l -
                (base + 0 * (words n (lw l) * mult l) + i2 * mult l) = (i1 - i2) * mult l) by lia.
        rewrite E, Z.abs_mul, (Z.abs_eq (mult l)) by lia. nia.
Qed.

Lemma local_single l base moff n :
  n <= lw l -> local_addrs l base moff n = [base + moff * mult l].
Proof. intros H. unfold local_addrs. apply Z.leb_le in H. now rewrite H. Qed.

(** Under the guard the accumulator plays no role. *)
Lemma phys_ideal l up base moff n addr :
  Forall usable (l :: up) -> 0 < n -> splits_at_top l up n ->
  fst (phys (l :: up) base moff n addr) =
  (match up with [] => [] | _ => addr end) ++ ideal l up base moff n.
Proof.
  revert l base moff n addr. induction up as [|u up IH]; intros l base moff n addr Hu Hn Ht.
  - now rewrite phys_root by auto.
  - inversion Hu as [|? ? Ul Uu]; subst.
    assert (Wl : 0 < lw l) by (destruct Ul; auto).
    rewrite phys_cons by auto. cbn [ideal].
    destruct up as [|v up].
    + (* the map above is the root: it clears *)
      clear IH.
      assert (G : forall loc ad sys w,
        fst (fst (fold_left (phys_step l u []) loc (ad, sys, w))) =
        ad ++ flat_map (fun a => ideal u [] (loff l + a * scale l u) 0 (lw l)) loc).
      { induction loc as [|a loc IHl]; intros ad sys w; cbn [fold_left flat_map].
        - now rewrite app_nil_r.
        - unfold phys_step at 2. rewrite phys_root by auto. rewrite IHl. now rewrite app_assoc. }
      specialize (G (local_addrs l base moff n) addr [] 0).
      destruct (fold_left _ _ _) as [[ad sys] w]. cbn [fst] in *. exact G.
    + cbn [splits_at_top] in Ht. destruct Ht as [Hs Ht].
      rewrite local_single by auto. cbn [fold_left flat_map]. unfold phys_step.
      specialize (IH u (loff l + (base + moff * mult l) * scale l u) 0 (lw l) [] Uu ltac:(lia) Ht).
      destruct (phys (u :: v :: up) _ _ _ _) as [sys w]. cbn [fst] in *. subst sys.
      cbn [app]. now rewrite app_nil_r.
Qed.

(** ** Bus width: the narrowest map on the way *)
Lemma phys_width l up base moff n addr :
  Forall usable (l :: up) -> 0 < n ->
  narrowest (l :: up) (snd (phys (l :: up) base moff n addr)).
Proof.
  revert l base moff n addr. induction up as [|u up IH]; intros l base moff n addr Hu Hn.
  - rewrite phys_root by auto. cbn. split.
    + exists l. cbn. auto.
    + repeat constructor. lia.
  - inversion Hu as [|? ? Ul Uu]; subst.
    assert (Wl : 0 < lw l) by (destruct Ul; auto).
    rewrite phys_cons by auto.
    assert (G : forall loc acc,
      (loc <> [] \/ narrowest (u :: up) (snd acc)) ->
      narrowest (u :: up) (snd (fold_left (phys_step l u up) loc acc))).
    { induction loc as [|a loc IHl]; intros [[ad sys] w] H; cbn [fold_left].
      - destruct H; [congruence|auto].
      - apply IHl. right. unfold phys_step.
        specialize (IH u (loff l + a * scale l u) 0 (lw l) sys Uu ltac:(lia)).
        destruct (phys (u :: up) _ _ _ _) as [s' w']. exact IH. }
    specialize (G (local_addrs l base moff n) (addr, [], 0)
                  (or_introl (local_nonempty l base moff n Ul Hn))).
    destruct (fold_left _ _ _) as [[ad sys] w]. cbn [snd] in *.
    destruct G as [(l0 & Hl0 & El0) F]. destruct (Z.ltb_spec w (lw l)).
    + split.
      * exists l0. split; [right; auto|auto].
      * constructor; [lia|auto].
    + split.
      * exists l. split; [left; auto|auto].
      * constructor; [lia|]. eapply Forall_impl; [|exact F]. cbn. lia.
Qed.

Lemma narrowest_fun c w w' : narrowest c w -> narrowest c w' -> w = w'.
Proof.
  intros [(l & Hl & <-) F] [(l' & Hl' & <-) F'].
  rewrite Forall_forall in F, F'. specialize (F _ Hl'). specialize (F' _ Hl). lia.
Qed.

(** ** Enough addresses *)
Lemma flat_map_length_const {A B} (f : A -> list B) c (l : list A) :
  (forall a, In a l -> Z.of_nat (length (f a)) = c) ->
  Z.of_nat (length (flat_map f l)) = Z.of_nat (length l) * c.
Proof.
  induction l as [|a l IH]; intros H; cbn [flat_map length]; [lia|].
  rewrite app_length, Nat2Z.inj_add, H by (left; auto).
  rewrite IH by (intros; apply H; now right). lia.
Qed.
Fixpoint count (l : level) (up : list level) (n : Z) : Z :=
  match up with
  | [] => words n (lw l)
  | u :: up' => words n (lw l) * count u up' (lw l)
  end.
Lemma ideal_length l up base moff n :
  Forall usable (l :: up) -> 0 < n ->
  Z.of_nat (length (ideal l up base moff n)) = count l up n.
Proof.
  revert l base moff n. induction up as [|u up IH]; intros l base moff n Hu Hn;
    inversion Hu as [|? ? Ul Uu]; subst; cbn [ideal count].
  - rewrite map_length. now apply local_length.
  - rewrite flat_map_length_const with (c := count u up (lw l)).
    + rewrite local_length; auto.
    + intros a _. apply IH; [assumption|]. destruct Ul; lia.
Qed.
Lemma count_covers l up n w :
  Forall usable (l :: up) -> 0 < n -> narrowest (l :: up) w -> n <= count l up n * w.
Proof.
  revert l n w. induction up as [|u up IH]; intros l n w Hu Hn Hw;
    inversion Hu as [|? ? Ul Uu]; subst; cbn [count].
  - destruct Ul as [Wl _]. destruct Hw as [(l0 & [->|[]] & E) _].
    pose proof (words_needs n (lw l0) Wl) as [? ?]. subst w. lia.
  - assert (Wl : 0 < lw l) by (destruct Ul; auto).
    pose proof (words_needs n (lw l) Wl) as [_ N].
    pose proof (words_pos n (lw l) Wl Hn) as P.
    destruct Hw as [(l0 & Hl0 & E) F]. inversion F as [|? ? Fl Fu]; subst.
    destruct Hl0 as [->|Hl0].
    + (* the map itself is the narrowest: one word each at least *)
      assert (1 <= count u up (lw l0)).
      { clear -Uu Wl. revert u Uu l0 Wl. induction up as [|v up IHu]; intros u Uu l0 Wl;
          inversion Uu as [|? ? [Wu _] Uv]; subst; cbn [count].
        - now apply words_pos.
        - specialize (IHu v Uv u Wu). pose proof (words_pos (lw l0) (lw u) Wu Wl). nia. }
      nia.
    + specialize (IH u (lw l) (lw l0) Uu Wl).
      assert (narrowest (u :: up) (lw l0)) by (split; [exists l0; auto|assumption]).
      specialize (IH H). nia.
Qed.

(** ** Shifting: memory elements *)
Fixpoint factor (l : level) (up : list level) : Z :=
  match up with [] => 1 | u :: up' => scale l u * factor u up' end.

Lemma local_shift l base d moff n :
  usable l ->
  local_addrs l (base + d) moff n = map (fun a => a + d) (local_addrs l base moff n).
Proof.
  intros [Hw He]. unfold local_addrs. destruct (n <=? lw l).
  - cbn. f_equal. lia.
  - destruct He as [He|He]; rewrite He, map_map; apply map_ext; intros; lia.
Qed.
Lemma fold_left_map {A B C} (f : A -> C -> A) (g : B -> C) (l : list B) a :
  fold_left f (map g l) a = fold_left (fun x y => f x (g y)) l a.
Proof. revert a. induction l; cbn; auto. Qed.

Lemma phys_shift l up base d moff n addr :
  Forall usable (l :: up) -> 0 < n ->
  phys (l :: up) (base + d) moff n (map (fun a => a + d * factor l up) addr) =
  (map (fun a => a + d * factor l up) (fst (phys (l :: up) base moff n addr)),
   snd (phys (l :: up) base moff n addr)).
Proof.
  revert l base d moff n addr. induction up as [|u up IH]; intros l base d moff n addr Hu Hn;
    inversion Hu as [|? ? Ul Uu]; subst.
  - rewrite !phys_root by auto. cbn [fst snd ideal factor]. rewrite local_shift by auto.
    rewrite !map_map. f_equal. apply map_ext. intros; lia.
  - rewrite !phys_cons by auto. rewrite local_shift by auto. rewrite fold_left_map.
    set (s := fun a => a + d * factor l (u :: up)).
    assert (Wl : 0 < lw l) by (destruct Ul; auto).
    assert (G : forall loc ad sys w,
      fold_left (fun x y => phys_step l u up x (y + d)) loc (map s ad, map s sys, w) =
      let '(ad', sys', w') := fold_left (phys_step l u up) loc (ad, sys, w) in
      (map s ad', map s sys', w')).
    { induction loc as [|a loc IHl]; intros ad sys w; cbn [fold_left]; [reflexivity|].
      unfold phys_step at 2 4.
      replace (loff l + (a + d) * scale l u) with (loff l + a * scale l u + d * scale l u) by lia.
      specialize (IH u (loff l + a * scale l u) (d * scale l u) 0 (lw l) sys Uu ltac:(lia)).
      assert (Es : forall x, map s x = map (fun a => a + d * scale l u * factor u up) x)
        by (intros; apply map_ext; intros; unfold s; cbn [factor]; lia).
      rewrite <- !Es in IH. rewrite IH.
      destruct (phys (u :: up) (loff l + a * scale l u) 0 (lw l) sys) as [sys' w'] eqn:E.
      cbn [fst snd]. rewrite <- map_app. apply IHl. }
    specialize (G (local_addrs l base moff n) addr [] 0). cbn [map] in G. rewrite G.
    destruct (fold_left (phys_step l u up) (local_addrs l base moff n) (addr, [], 0))
      as [[ad' sys'] w']. reflexivity.
Qed.

Lemma local_moff l base moff n :
  usable l -> 0 < n ->
  local_addrs l base moff n = local_addrs l (base + moff * (words n (lw l) * mult l)) 0 n.
Proof.
  intros [Hw He] Hn. unfold local_addrs. destruct (Z.leb_spec n (lw l)).
  - rewrite words_one by lia. f_equal. lia.
  - rewrite !Z.mul_0_l, !Z.add_0_r. reflexivity.
Qed.
Lemma phys_moff l up base moff n addr :
  Forall usable (l :: up) -> 0 < n ->
  phys (l :: up) base moff n addr =
  phys (l :: up) (base + moff * (words n (lw l) * mult l)) 0 n addr.
Proof.
  intros Hu Hn. inversion Hu as [|? ? Ul Uu]; subst.
  cbn [phys]. now rewrite (local_moff l base moff n) by auto.
Qed.

Lemma gpa_element l up base moff n :
  Forall usable (l :: up) -> 0 < n ->
  get_physical_addresses (l :: up) base moff n =
  map (fun a => a + moff * (words n (lw l) * mult l) * factor l up)
      (get_physical_addresses (l :: up) base 0 n).
Proof.
  intros Hu Hn. unfold get_physical_addresses.
  rewrite (phys_moff l up base moff n) by auto.
  pose proof (phys_shift l up base (moff * (words n (lw l) * mult l)) 0 n [] Hu Hn) as H.
  cbn [map] in H. rewrite H. reflexivity.
Qed.

Lemma gpa_nonempty l up base n :
  Forall usable (l :: up) -> 0 < n -> get_physical_addresses (l :: up) base 0 n <> [].
Proof.
  intros Hu Hn E.
  assert (H : forall x, In x (ideal l up base 0 n) -> False).
  { intros x Hx. apply gpa_in in Hx; auto. rewrite E in Hx. exact Hx. }
  pose proof (ideal_length l up base 0 n Hu Hn) as L.
  assert (E2 : ideal l up base 0 n = []).
  { destruct (ideal l up base 0 n) as [|x t]; [auto|]. exfalso. apply (H x). now left. }
  rewrite E2 in L. cbn in L.
  assert (N : exists w, narrowest (l :: up) w) by (eexists; apply (phys_width l up base 0 n []); auto).
  destruct N as [w N]. pose proof (count_covers l up n w Hu Hn N). lia.
Qed.

Lemma mem_range_elements l up offset n msize o :
  Forall usable (l :: up) -> 0 < n -> 2 <= msize ->
  exists addrs stride,
    mem_range (l :: up) offset n msize = Some (addrs, stride) /\
    mem_addrs addrs stride o = get_physical_addresses (l :: up) offset o n.
Proof.
  intros Hu Hn Hm. unfold mem_range.
  destruct (Z.eqb_spec (msize - 1) 0); [lia|]. do 2 eexists. split; [reflexivity|].
  rewrite (gpa_element l up offset (msize - 1) n) by auto.
  rewrite (gpa_element l up offset o n) by auto.
  pose proof (gpa_nonempty l up offset n Hu Hn) as NE.
  destruct (get_physical_addresses (l :: up) offset 0 n) as [|a t] eqn:E; [congruence|].
  set (W := words n (lw l) * mult l). set (K := factor l up).
  cbn [hd map]. replace (a + (msize - 1) * W * K - a) with (W * K * (msize - 1)) by lia.
  rewrite Z.quot_mul by lia. unfold mem_addrs. cbn [map]. f_equal; [lia|]. apply map_ext. intros. lia.
Qed.

(** ** Bus transfers *)
Lemma write_loop_ok ok d st ops :
  (forall a v, In (a, v) ops -> ok a = true) ->
  snd (write_loop ok d st ops) = ops /\
  (ops <> [] -> snd (fst (write_loop ok d st ops)) = IS_OK) /\
  (forall a, ~ In a (map fst ops) -> fst (fst (write_loop ok d st ops)) a = d a) /\
  (NoDup (map fst ops) -> forall a v, In (a, v) ops ->
     fst (fst (write_loop ok d st ops)) a = v).
Proof.
  revert d st. induction ops as [|[a v] ops IH]; intros d st Hok; cbn [write_loop].
  - cbn. intuition congruence.
  - rewrite (Hok a v) by (left; reflexivity).
    specialize (IH (setz d a v) IS_OK (fun a0 v0 H => Hok a0 v0 (or_intror H))).
    destruct (write_loop ok (setz d a v) IS_OK ops) as [[d' st'] log] eqn:E.
    cbn [fst snd] in *. destruct IH as (L & S & F & V).
    split; [now f_equal|]. split; [|split].
    + intros _. destruct ops; [cbn in E; inversion E; reflexivity|apply S; congruence].
    + intros b Hb. cbn [map fst In] in Hb. rewrite F by tauto.
      unfold setz. destruct (Z.eqb_spec b a); [subst; tauto|reflexivity].
    + intros Hn b w [Heq|Hin]; cbn [map fst] in Hn; inversion Hn as [|? ? Na Nt]; subst.
      * inversion Heq; subst b w. rewrite F by auto. unfold setz. now rewrite Z.eqb_refl.
      * now apply V.
Qed.

Lemma write_loop_prefix ok d st ops :
  exists rest, ops = snd (write_loop ok d st ops) ++ rest.
Proof.
  revert d st. induction ops as [|[a v] ops IH]; intros d st; cbn [write_loop].
  - exists []. reflexivity.
  - destruct (ok a).
    + destruct (IH (setz d a v) IS_OK) as [r Hr].
      destruct (write_loop ok (setz d a v) IS_OK ops) as [[d' st'] log]. cbn [snd] in *.
      exists r. cbn. now f_equal.
    + exists ops. reflexivity.
Qed.

Lemma mask_ones n : Z.shiftl 1 n - 1 = Z.ones n.
Proof. unfold Z.ones. lia. Qed.

Lemma read_loop_bits ok d bw st v ops i :
  (forall a cb, In (a, cb) ops -> ok a = true /\ 0 <= cb) -> 0 <= bw -> 0 <= i ->
  (Z.testbit (fst (fst (read_loop ok d bw st v ops))) i = true <->
   Z.testbit v i = true \/
   exists a cb, In (a, cb) ops /\ cb * 8 <= i < (cb + bw) * 8 /\
     Z.testbit (d a) (i - cb * 8) = true).
Proof.
  intros Hok Hbw Hi. revert st v. induction ops as [|[a cb] ops IH]; intros st v; cbn [read_loop].
  - cbn. split; [auto|]. intros [H|(a & cb & [] & _)]; auto.
  - destruct (Hok a cb (or_introl eq_refl)) as [Ha Hcb]. rewrite Ha.
    specialize (IH (fun a0 v0 H => Hok a0 v0 (or_intror H)) IS_OK
      (Z.lor v (Z.shiftl (Z.land (d a) (Z.shiftl 1 (bw * 8) - 1)) (cb * 8)))).
    destruct (read_loop _ _ _ _ _ ops) as [[v' st'] log]. cbn [fst] in *. rewrite IH.
    rewrite Z.lor_spec, orb_true_iff, Z.shiftl_spec, mask_ones, Z.land_spec by lia.
    split.
    + intros [[H|H]|(b & c & H1 & H2 & H3)]; [auto| |].
      * right. exists a, cb. split; [now left|].
        apply andb_true_iff in H as [H1 H2].
        destruct (Z_lt_le_dec (i - cb * 8) 0).
        { rewrite Z.testbit_neg_r in H1 by lia. discriminate. }
        rewrite Z.testbit_ones_nonneg in H2 by lia. apply Z.ltb_lt in H2. split; [lia|auto].
      * right. exists b, c. split; [now right|auto].
    + intros [H|(b & c & [H1|H1] & H2 & H3)]; [auto| |].
      * inversion H1; subst b c. left. right. rewrite H3. cbn.
        rewrite Z.testbit_ones_nonneg by lia. apply Z.ltb_lt. lia.
      * right. exists b, c. auto.
Qed.
Lemma read_loop_status ok d bw st v ops :
  (forall a cb, In (a, cb) ops -> ok a = true) -> ops <> [] ->
  snd (fst (read_loop ok d bw st v ops)) = IS_OK.
Proof.
  revert st v. induction ops as [|[a cb] ops IH]; intros st v Hok Hne; [congruence|].
  cbn [read_loop]. rewrite (Hok a cb (or_introl eq_refl)).
  specialize (IH IS_OK (Z.lor v (Z.shiftl (Z.land (d a) (Z.shiftl 1 (bw * 8) - 1)) (cb * 8)))
    (fun a0 v0 H => Hok a0 v0 (or_intror H))).
  destruct (read_loop _ _ _ _ _ ops) as [[v' st'] log] eqn:E. cbn [fst snd] in *.
  destruct ops; [cbn in E; inversion E; reflexivity|apply IH; congruence].
Qed.

Lemma write_ops_in value bw c addrs a v :
  In (a, v) (write_ops value bw c addrs) <->
  exists j, nth_error addrs j = Some a /\
    v = Z.land (Z.shiftr value ((c + Z.of_nat j * bw) * 8)) (Z.shiftl 1 (bw * 8) - 1).
Proof.
  revert c. induction addrs as [|b t IH]; intros c; cbn [write_ops].
  - split; [intros []|]. intros (j & H & _). destruct j; discriminate.
  - cbn [In]. rewrite IH. split.
    + intros [H|(j & Hj & Hv)].
      * inversion H; subst. exists O. split; [reflexivity|]. do 3 f_equal. lia.
      * exists (S j). split; [exact Hj|]. rewrite Hv. do 3 f_equal. lia.
    + intros ([|j] & Hj & Hv).
      * left. cbn in Hj. inversion Hj; subst. f_equal. do 3 f_equal. lia.
      * right. exists j. split; [exact Hj|]. rewrite Hv. do 3 f_equal. lia.
Qed.
Lemma write_ops_fst value bw c addrs : map fst (write_ops value bw c addrs) = addrs.
Proof. revert c. induction addrs; intros c; cbn; [auto|]. now rewrite IHaddrs. Qed.
Lemma read_ops_in bw c addrs a cb :
  In (a, cb) (read_ops bw c addrs) <->
  exists j, nth_error addrs j = Some a /\ cb = c + Z.of_nat j * bw.
Proof.
  revert c. induction addrs as [|b t IH]; intros c; cbn [read_ops].
  - split; [intros []|]. intros (j & H & _). destruct j; discriminate.
  - cbn [In]. rewrite IH. split.
    + intros [H|(j & Hj & Hv)].
      * inversion H; subst. exists O. split; [reflexivity|lia].
      * exists (S j). split; [exact Hj|lia].
    + intros ([|j] & Hj & Hv).
      * left. cbn in Hj. inversion Hj; subst. f_equal. lia.
      * right. exists j. split; [exact Hj|lia].
Qed.
Lemma read_ops_fst bw c addrs : map fst (read_ops bw c addrs) = addrs.
Proof. revert c. induction addrs; intros c; cbn; [auto|]. now rewrite IHaddrs. Qed.

Definition reorders (order : list busop -> list busop) : Prop :=
  forall l, Permutation (order l) l.

(** A store holding the slices of [value] at [addrs] *)
Definition holds (d : dev) (bw value : Z) (addrs : list Z) : Prop :=
  forall j a, nth_error addrs j = Some a ->
    d a = Z.land (Z.shiftr value (Z.of_nat j * bw * 8)) (Z.shiftl 1 (bw * 8) - 1).

Lemma write_holds ok order d st bw value addrs :
  reorders order -> NoDup addrs -> (forall a, In a addrs -> ok a = true) ->
  let r := write_loop ok d st (order (write_ops value bw 0 addrs)) in
  holds (fst (fst r)) bw value addrs /\
  (forall a, ~ In a addrs -> fst (fst r) a = d a) /\
  (addrs <> [] -> snd (fst r) = IS_OK) /\
  snd r = order (write_ops value bw 0 addrs).
Proof.
  intros Ho Hn Hok r.
  pose proof (Ho (write_ops value bw 0 addrs)) as P.
  assert (Pf : Permutation (map fst (order (write_ops value bw 0 addrs))) addrs).
  { rewrite <- (write_ops_fst value bw 0 addrs) at 2. now apply Permutation_map. }
  destruct (write_loop_ok ok d st (order (write_ops value bw 0 addrs))) as (L & S & F & V).
  { intros a v H. apply Hok. apply (Permutation_in _ Pf).
    apply in_map_iff. exists (a, v). auto. }
  split; [|split; [|split]].
  - intros j a Hj. apply V.
    + apply (Permutation_NoDup (Permutation_sym Pf)). exact Hn.
    + apply (Permutation_in _ (Permutation_sym P)). apply write_ops_in.
      exists j. split; [exact Hj|]. reflexivity.
  - intros a Ha. apply F. intros H. apply Ha. now apply (Permutation_in _ Pf).
  - intros Hne. apply S. intros E. rewrite E in P.
    apply Permutation_nil in P. destruct addrs; [congruence|discriminate].
  - exact L.
Qed.

Lemma read_held ok order d st bw value addrs :
  reorders order -> 0 < bw -> (forall a, In a addrs -> ok a = true) ->
  holds d bw value addrs ->
  0 <= value < 2 ^ (8 * bw * Z.of_nat (length addrs)) ->
  fst (fst (read_loop ok d bw st 0 (order (read_ops bw 0 addrs)))) = value.
Proof.
  intros Ho Hbw Hok Hh Hv.
  pose proof (Ho (read_ops bw 0 addrs)) as P.
  apply Z.bits_inj'. intros i Hi.
  set (X := Z.testbit value i).
  assert (B : Z.testbit (fst (fst (read_loop ok d bw st 0 (order (read_ops bw 0 addrs))))) i = true
              <-> X = true).
  { rewrite read_loop_bits; [| |lia|lia].
    - rewrite Z.testbit_0_l. split.
      + intros [H|(a & cb & Hin & Hr & Hb)]; [discriminate|].
        apply (Permutation_in _ P) in Hin. apply read_ops_in in Hin as (j & Hj & Hcb).
        rewrite (Hh j a Hj) in Hb.
        rewrite Z.land_spec, Z.shiftr_spec in Hb by lia. apply andb_true_iff in Hb as [Hb _].
        unfold X. replace i with (i - cb * 8 + Z.of_nat j * bw * 8) by lia. exact Hb.
      + intros H. right. unfold X in H.
        assert (Hlt : i < 8 * bw * Z.of_nat (length addrs)).
        { destruct (Z_lt_le_dec i (8 * bw * Z.of_nat (length addrs))); [auto|].
          rewrite (Z.bits_above_log2 value i) in H; [discriminate|lia|].
          destruct (Z.eq_dec value 0) as [->|]; [cbn; rewrite Z.testbit_0_l in H; discriminate|].
          apply Z.log2_lt_pow2; [lia|].
          eapply Z.lt_le_trans; [apply Hv|]. apply Z.pow_le_mono_r; lia. }
        set (j := Z.to_nat (i / (8 * bw))).
        assert (Hj : Z.of_nat j = i / (8 * bw)).
        { unfold j. rewrite Z2Nat.id; [auto|]. apply Z.div_pos; lia. }
        pose proof (Z.div_mod i (8 * bw) ltac:(lia)) as DM.
        pose proof (Z.mod_pos_bound i (8 * bw) ltac:(lia)) as MB.
        assert (Hjl : (j < length addrs)%nat) by nia.
        destruct (nth_error addrs j) as [a|] eqn:E;
          [|apply nth_error_None in E; lia].
        exists a, (Z.of_nat j * bw). split; [|split].
        * apply (Permutation_in _ (Permutation_sym P)). apply read_ops_in.
          exists j. split; [auto|lia].
        * lia.
        * rewrite (Hh j a E), mask_ones, Z.land_spec, Z.shiftr_spec by lia.
          rewrite Z.testbit_ones_nonneg by lia.
          replace (i - Z.of_nat j * bw * 8 + Z.of_nat j * bw * 8) with i by lia.
          rewrite H. apply Z.ltb_lt. lia.
    - intros a cb Hin. apply (Permutation_in _ P) in Hin.
      apply read_ops_in in Hin as (j & Hj & Hcb). split; [|lia].
      apply Hok. eapply nth_error_In; eauto. }
  unfold X in B. apply eq_true_iff_eq. exact B.
Qed.

(** Bursts: element [j] is at [shift_addrs addrs stride j]. *)
Definition at_elem (addrs : list Z) (stride : Z) (j : nat) : list Z :=
  map (fun a => a + stride * Z.of_nat j) addrs.
Lemma at_elem_shift addrs stride j :
  at_elem (map (fun a => a + stride) addrs) stride j = at_elem addrs stride (S j).
Proof. unfold at_elem. rewrite map_map. apply map_ext. intros. lia. Qed.
Lemma at_elem_0 addrs stride : at_elem addrs stride 0 = addrs.
Proof. unfold at_elem. rewrite <- (map_id addrs) at 2. apply map_ext. intros. lia. Qed.
Lemma at_elem_nodup addrs stride j : NoDup addrs -> NoDup (at_elem addrs stride j).
Proof. intros H. apply FinFun.Injective_map_NoDup; [intros a b; lia|auto]. Qed.

Lemma bus_write_holds ok order bw stride values :
  reorders order -> forall addrs d st,
  NoDup addrs ->
  (forall j a, (j < length values)%nat -> In a (at_elem addrs stride j) -> ok a = true) ->
  (forall i j a, (i < j)%nat -> (j < length values)%nat ->
     In a (at_elem addrs stride i) -> In a (at_elem addrs stride j) -> False) ->
  let r := bus_write ok order bw stride d st addrs values in
  (forall j v, nth_error values j = Some v ->
     holds (fst (fst r)) bw v (at_elem addrs stride j) /\
     nth_error (snd r) j = Some (order (write_ops v bw 0 (at_elem addrs stride j)))) /\
  (forall a, (forall j, (j < length values)%nat -> ~ In a (at_elem addrs stride j)) ->
     fst (fst r) a = d a) /\
  (addrs <> [] -> values <> [] -> snd (fst r) = IS_OK).
Proof.
  intros Ho. induction values as [|v vs IH]; intros addrs d st Hn Hok Hd; cbn [bus_write].
  - cbn. split; [|split; [auto|congruence]]. intros [|j] v H; discriminate.
  - assert (OK0 : forall a, In a addrs -> ok a = true).
    { intros a Ha. apply (Hok O); [cbn; lia|]. now rewrite at_elem_0. }
    pose proof (write_holds ok order d st bw v addrs Ho Hn OK0) as W. cbn zeta in W.
    destruct (write_loop ok d st (order (write_ops v bw 0 addrs))) as [[d1 st1] log1].
    cbn [fst snd] in W. destruct W as (W1 & W2 & W3 & W4).
    specialize (IH (map (fun a => a + stride) addrs) d1 st1).
    destruct IH as (A & B & C).
    + apply FinFun.Injective_map_NoDup; [intros a b; lia|auto].
    + intros j a Hj Ha. rewrite at_elem_shift in Ha. apply (Hok (S j)); [cbn; lia|auto].
    + intros i j a Hij Hj. rewrite !at_elem_shift. apply Hd; cbn; lia.
    + destruct (bus_write ok order bw stride d1 st1 (map (fun a => a + stride) addrs) vs)
        as [[d2 st2] log2] eqn:E. cbn [fst snd] in *. split; [|split].
      * intros [|j] w Hj; cbn [nth_error] in *.
        { inversion Hj; subst w. rewrite at_elem_0. split; [|now rewrite <- W4].
          intros k a Hk. rewrite B; [now apply W1|].
          intros j Hj2. rewrite at_elem_shift. intros Hin.
          apply (Hd O (S j) a); [lia|cbn; lia| |exact Hin].
          rewrite at_elem_0. eapply nth_error_In; eauto. }
        { destruct (A j w Hj) as [A1 A2]. rewrite at_elem_shift in A1, A2. auto. }
      * intros a Ha. rewrite B.
        { apply W2. specialize (Ha O ltac:(cbn; lia)). now rewrite at_elem_0 in Ha. }
        { intros j Hj. rewrite at_elem_shift. apply Ha. cbn; lia. }
      * intros Hne _. destruct vs as [|v2 vs].
        { cbn in E. inversion E; subst. now apply W3. }
        { apply C; [|congruence]. destruct addrs; [congruence|discriminate]. }
Qed.

Lemma bus_read_held ok order bw stride d :
  reorders order -> 0 < bw -> forall values addrs st,
  (forall j a, (j < length values)%nat -> In a (at_elem addrs stride j) -> ok a = true) ->
  (forall j v, nth_error values j = Some v ->
     holds d bw v (at_elem addrs stride j) /\
     0 <= v < 2 ^ (8 * bw * Z.of_nat (length addrs))) ->
  fst (fst (bus_read ok order bw stride d st addrs (length values))) = values /\
  (addrs <> [] -> values <> [] ->
   snd (fst (bus_read ok order bw stride d st addrs (length values))) = IS_OK).
Proof.
  intros Ho Hbw. induction values as [|v vs IH]; intros addrs st Hok Hh; cbn [bus_read length].
  - cbn. split; [auto|congruence].
  - destruct (Hh O v eq_refl) as [H0 V0]. rewrite at_elem_0 in H0.
    assert (OK0 : forall a, In a addrs -> ok a = true).
    { intros a Ha. apply (Hok O); [cbn; lia|]. now rewrite at_elem_0. }
    pose proof (read_held ok order d st bw v addrs Ho Hbw OK0 H0 V0) as R.
    assert (RS : addrs <> [] ->
      snd (fst (read_loop ok d bw st 0 (order (read_ops bw 0 addrs)))) = IS_OK).
    { intros Hne. apply read_loop_status.
      - intros a cb Hin. apply (Permutation_in _ (Ho _)) in Hin.
        apply read_ops_in in Hin as (j & Hj & _). apply OK0. eapply nth_error_In; eauto.
      - intros E. pose proof (Ho (read_ops bw 0 addrs)) as P. rewrite E in P.
        apply Permutation_nil in P. destruct addrs; [congruence|discriminate]. }
    destruct (read_loop ok d bw st 0 (order (read_ops bw 0 addrs))) as [[v' st1] log1].
    cbn [fst snd] in R, RS. subst v'.
    specialize (IH (map (fun a => a + stride) addrs) st1). destruct IH as [A B].
    + intros j a Hj Ha. rewrite at_elem_shift in Ha. apply (Hok (S j)); [cbn; lia|auto].
    + intros j w Hj. rewrite at_elem_shift, map_length. exact (Hh (S j) w Hj).
    + destruct (bus_read ok order bw stride d st1 (map (fun a => a + stride) addrs) (length vs))
        as [[vs' st2] log2] eqn:E. cbn [fst snd] in *. subst vs'. split; [reflexivity|].
      intros Hne _. destruct vs as [|v2 vs].
      * cbn in E. inversion E; subst. auto.
      * apply B; [|congruence]. destruct addrs; [congruence|discriminate].
Qed.

(** ** Failing accesses of one value *)
Lemma write_loop_fail ok d st ops :
  let r := write_loop ok d st ops in
  (exists rest, ops = snd r ++ rest /\
     (snd (fst r) = NOT_OK -> ops <> [] -> exists a v pre, snd r = pre ++ [(a, v)] /\
        ok a = false /\ Forall (fun o => ok (fst o) = true) pre) /\
     (snd (fst r) = IS_OK -> rest = [] /\ Forall (fun o => ok (fst o) = true) (snd r))) \/
  ops = [].
Proof.
  revert d st. induction ops as [|[a v] ops IH]; intros d st; cbn zeta; [right; reflexivity|].
  left. cbn [write_loop]. destruct (ok a) eqn:Ha.
  - specialize (IH (setz d a v) IS_OK). cbn zeta in IH.
    destruct (write_loop ok (setz d a v) IS_OK ops) as [[d' st'] log] eqn:E.
    cbn [fst snd] in *. destruct IH as [(rest & H1 & H2 & H3)| ->].
    + exists rest. split; [cbn; now f_equal|]. split.
      * intros Hs _. destruct ops as [|o ops].
        { cbn in E. inversion E; subst. discriminate. }
        destruct (H2 Hs ltac:(congruence)) as (b & w & pre & P1 & P2 & P3).
        exists b, w, ((a, v) :: pre). split; [cbn; now f_equal|]. split; [auto|].
        constructor; auto.
      * intros Hs. destruct (H3 Hs) as [R F]. split; [auto|]. constructor; auto.
    + cbn in E. inversion E; subst. exists []. split; [reflexivity|]. split.
      * discriminate.
      * intros _. split; [reflexivity|]. constructor; auto.
  - cbn [fst snd]. exists ops. split; [reflexivity|]. split.
    + intros _ _. exists a, v, []. auto.
    + discriminate.
Qed.

Lemma read_loop_fail ok d bw : forall ops st v, ops <> [] ->
  let r := read_loop ok d bw st v ops in
  exists rest, map fst ops = snd r ++ rest /\
    ((snd (fst r) = IS_OK /\ rest = [] /\ Forall (fun a => ok a = true) (snd r)) \/
     (snd (fst r) = NOT_OK /\ exists pre a, snd r = pre ++ [a] /\ ok a = false /\
        Forall (fun a => ok a = true) pre)).
Proof.
  induction ops as [|[a cb] ops IH]; intros st v Hne; [congruence|]. cbn zeta. cbn [read_loop map fst].
  destruct (ok a) eqn:Ha.
  - destruct ops as [|o ops].
    + cbn. exists []. split; [reflexivity|]. left. repeat split. constructor; auto.
    + specialize (IH IS_OK (Z.lor v (Z.shiftl (Z.land (d a) (Z.shiftl 1 (bw * 8) - 1)) (cb * 8))) ltac:(congruence)).
      cbn zeta in IH.
      destruct (read_loop ok d bw IS_OK _ (o :: ops)) as [[v' st'] log]. cbn [fst snd] in *.
      destruct IH as (rest & H1 & H2). exists rest. split; [cbn [app]; now f_equal|].
      destruct H2 as [(S1 & S2 & S3)|(S1 & pre & b & S2 & S3 & S4)].
      * left. split; [auto|]. split; [auto|]. constructor; auto.
      * right. split; [auto|]. exists (a :: pre), b. split; [cbn; now f_equal|]. split; [auto|]. constructor; auto.
  - cbn [fst snd]. exists (map fst ops). split; [reflexivity|]. right. split; [auto|].
    exists [], a. auto.
Qed.

(** ** Address lookup *)
Lemma setd_eq {B} (f : Z -> B) a v : setd f a v a = v.
Proof. unfold setd. now rewrite Z.eqb_refl. Qed.
Lemma setd_neq {B} (f : Z -> B) a v b : b <> a -> setd f a v b = f b.
Proof. unfold setd. intros H. destruct (Z.eqb_spec b a); congruence. Qed.

(** Flattened view: the sequence of (register, address) entered. *)
Definition flat (es : list entry) : list (nat * Z) :=
  flat_map (fun e => map (fun a => (fst e, a)) (snd e)) es.
Definition enter1 acc tb (p : nat * Z) := enter_addr acc (fst p) tb (snd p).
Lemma fold_enter acc es tb :
  fold_left (enter acc) es tb = fold_left (enter1 acc) (flat es) tb.
Proof.
  revert tb. induction es as [|[r as_] es IH]; intros tb; cbn [fold_left flat flat_map]; [auto|].
  rewrite fold_left_app, <- IH. f_equal. unfold enter. cbn [fst snd].
  revert tb. induction as_ as [|a as_ IHa]; intros tb; cbn [fold_left map]; [auto|].
  apply IHa.
Qed.
Lemma flat_mapped es r a : In (r, a) (flat es) <-> mapped_at es r a.
Proof.
  unfold flat, mapped_at. rewrite in_flat_map. split.
  - intros ([r0 as_] & He & Hi). apply in_map_iff in Hi as (b & Hb & Hin).
    cbn in *. inversion Hb; subst. eauto.
  - intros (as_ & He & Hi). exists (r, as_). split; [auto|]. apply in_map_iff. eauto.
Qed.

(** What the tables hold at address [a] after entering [ps]. *)
Section Lookup.
  Context (acc : nat -> racc).
  Definition at_addr (a : Z) (ps : list (nat * Z)) : list nat :=
    map fst (filter (fun p => snd p =? a) ps).
  (** effect on one address of one register wanting it *)
  Definition put1 (c : option nat * option nat) (r : nat) : option nat * option nat :=
    match fst c with
    | Some r2 =>
        match acc r, acc r2 with
        | ARO, AWO => (Some r, Some r2)
        | AWO, ARO => (Some r2, Some r)
        | _, _ => c
        end
    | None => (Some r, snd c)
    end.
  Lemma enter1_at tb p a :
    (by_off (fst (enter1 acc tb p)) a, by_off_wo (fst (enter1 acc tb p)) a) =
    (if snd p =? a then put1 (by_off (fst tb) a, by_off_wo (fst tb) a) (fst p)
     else (by_off (fst tb) a, by_off_wo (fst tb) a)).
  Proof.
    destruct tb as [t w]. destruct p as [r b]. unfold enter1, enter_addr, put1. cbn [fst snd].
    destruct (Z.eqb_spec b a) as [->|Hne].
    - destruct (by_off t a) as [r2|] eqn:E; cbn [fst by_off by_off_wo].
      + destruct (acc r), (acc r2); cbn [fst by_off by_off_wo]; rewrite ?setd_eq, ?E; reflexivity.
      + now rewrite setd_eq.
    - destruct (by_off t b) as [r2|] eqn:E; cbn [fst by_off by_off_wo].
      + destruct (acc r), (acc r2); cbn [fst by_off by_off_wo];
          rewrite ?setd_neq by congruence; reflexivity.
      + now rewrite setd_neq by congruence.
  Qed.
  Lemma fold_enter1_at ps : forall tb a,
    (by_off (fst (fold_left (enter1 acc) ps tb)) a,
     by_off_wo (fst (fold_left (enter1 acc) ps tb)) a) =
    fold_left put1 (at_addr a ps) (by_off (fst tb) a, by_off_wo (fst tb) a).
  Proof.
    induction ps as [|p ps IH]; intros tb a; cbn [fold_left].
    - reflexivity.
    - rewrite IH, enter1_at. unfold at_addr. cbn [filter].
      destruct (snd p =? a); reflexivity.
  Qed.
  Lemma in_at_addr a ps r : In r (at_addr a ps) <-> In (r, a) ps.
  Proof.
    unfold at_addr. rewrite in_map_iff. split.
    - intros ([r0 b] & <- & H). apply filter_In in H as [H1 H2].
      cbn in *. apply Z.eqb_eq in H2. now subst.
    - intros H. exists (r, a). split; [auto|]. apply filter_In. split; [auto|].
      cbn. apply Z.eqb_refl.
  Qed.

  (** soundness *)
  Lemma put1_sound l : forall c,
    (forall r, fst (fold_left put1 l c) = Some r -> In r l \/ fst c = Some r) /\
    (forall r, snd (fold_left put1 l c) = Some r ->
       In r l \/ fst c = Some r \/ snd c = Some r).
  Proof.
    induction l as [|x l IH]; intros c; cbn [fold_left]; [split; auto|].
    destruct (IH (put1 c x)) as [A B]. split; intros r H; cbn [In].
    - destruct (A r H) as [?|E]; [auto|]. unfold put1 in E. destruct c as [c1 c2]; cbn in *.
      destruct c1 as [r2|]; cbn in E.
      + destruct (acc x), (acc r2); cbn in E; auto; inversion E; subst; auto.
      + inversion E; auto.
    - destruct (B r H) as [?|[E|E]]; [auto| |]; unfold put1 in E; destruct c as [c1 c2]; cbn in *.
      + destruct c1 as [r2|]; cbn in E.
        * destruct (acc x), (acc r2); cbn in E; auto; inversion E; subst; auto.
        * inversion E; auto.
      + destruct c1 as [r2|]; cbn in E.
        * destruct (acc x), (acc r2); cbn in E; auto; inversion E; subst; auto.
        * auto.
  Qed.

  Lemma put1_alone l r : forall c,
    (forall x, In x l -> x = r) ->
    (fst c = None \/ fst c = Some r) -> snd c = None ->
    fold_left put1 l c = (if match l with [] => true | _ => false end then fst c else Some r, None).
  Proof.
    induction l as [|x l IH]; intros [c1 c2] Hl Hc Hs; cbn [fst snd] in *; subst c2.
    - reflexivity.
    - cbn [fold_left]. rewrite (Hl x) in * by (left; auto).
      assert (E : put1 (c1, None) r = (Some r, None)).
      { unfold put1. cbn. destruct Hc as [->| ->]; [reflexivity|]. destruct (acc r); reflexivity. }
      rewrite E, IH; cbn; auto.
      + destruct l; reflexivity.
      + intros; apply Hl; now right.
  Qed.

  (** a read-only and a write-only register sharing an address *)
  Lemma put1_pair l ro wo :
    acc ro = ARO -> acc wo = AWO -> (forall x, In x l -> x = ro \/ x = wo) ->
    forall c, In (c) [(None, None); (Some ro, None); (Some wo, None); (Some ro, Some wo)] ->
    (In ro l \/ fst c = Some ro) -> (In wo l \/ fst c = Some wo \/ snd c = Some wo) ->
    fold_left put1 l c = (Some ro, Some wo).
  Proof.
    intros Ar Aw. assert (Hne : ro <> wo) by congruence.
    induction l as [|x l IH]; intros Hl c Hc Hro Hwo.
    - cbn in *. destruct Hc as [<-|[<-|[<-|[<-|[]]]]]; cbn in *;
        destruct Hro as [[]|Hro]; destruct Hwo as [[]|[Hwo|Hwo]]; congruence.
    - cbn [fold_left].
      assert (Hx : x = ro \/ x = wo) by (apply Hl; now left).
      apply IH.
      + intros; apply Hl; now right.
      + cbn [In] in *. unfold put1.
        destruct Hc as [<-|[<-|[<-|[<-|[]]]]]; destruct Hx as [->| ->]; cbn; rewrite ?Ar, ?Aw; auto.
      + cbn [In] in Hro, Hc. unfold put1.
        destruct Hro as [[Hro|Hro]|Hro]; [|left; exact Hro|];
          [subst x; right; destruct Hc as [<-|[<-|[<-|[<-|[]]]]]; cbn; rewrite ?Ar, ?Aw; reflexivity|].
        right. destruct Hc as [<-|[<-|[<-|[<-|[]]]]]; cbn in Hro; try congruence;
            destruct Hx as [->| ->]; cbn; rewrite ?Ar, ?Aw; reflexivity.
      + cbn [In] in Hwo, Hc. unfold put1.
        destruct Hwo as [[Hwo|Hwo]|Hwo]; [|left; exact Hwo|];
          [subst x; right; destruct Hc as [<-|[<-|[<-|[<-|[]]]]]; cbn; rewrite ?Ar, ?Aw; auto|].
        right. destruct Hc as [<-|[<-|[<-|[<-|[]]]]]; cbn in Hwo;
            try (destruct Hwo as [Hwo|Hwo]; congruence);
            destruct Hx as [->| ->]; cbn; rewrite ?Ar, ?Aw; auto.
  Qed.
End Lookup.

Lemma init_at acc m a :
  (by_off (fst (init_map acc m)) a, by_off_wo (fst (init_map acc m)) a) =
  fold_left (put1 acc) (at_addr a (flat (entries [] m))) (None, None).
Proof. unfold init_map. rewrite fold_enter. apply fold_enter1_at. Qed.

