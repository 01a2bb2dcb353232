From Coq Require Import List Arith Bool Lia.
From Verif Require Import SpellModel SpellSpec.
Import ListNotations.
Local Open Scope nat_scope.

(** ** Alignments *)
Inductive align : nat -> str -> str -> Prop :=
| A_nil : align 0 [] []
| A_skip k a s t : align k s t -> align k (a :: s) (a :: t)
| A_sub k a b s t : align k s t -> align (S k) (a :: s) (b :: t)
| A_del k a s t : align k s t -> align (S k) (a :: s) t
| A_ins k b s t : align k s t -> align (S k) s (b :: t).

Lemma align_refl s : align 0 s s.
Proof. induction s; constructor; auto. Qed.

Inductive e1 : str -> str -> Prop :=
| e_sub a b s : e1 (a :: s) (b :: s)
| e_del a s : e1 (a :: s) s
| e_ins b s : e1 s (b :: s)
| e_cons c s t : e1 s t -> e1 (c :: s) (c :: t).

Lemma edit1_e1 s t : edit1 s t <-> e1 s t.
Proof.
  split.
  - intros (l & r & [(a & b & -> & ->)|[(a & -> & ->)|(b & -> & ->)]]);
      induction l; cbn [app]; constructor; auto.
  - induction 1 as [a b s|a s|b s|c s t H (l & r & IH)].
    + exists [], s. left. now exists a, b.
    + exists [], s. right; left. now exists a.
    + exists [], s. right; right. now exists b.
    + exists (c :: l), r. destruct IH as [(a & b & -> & ->)|[(a & -> & ->)|(b & -> & ->)]].
      * left. now exists a, b.
      * right; left. now exists a.
      * right; right. now exists b.
Qed.

Lemma align_sub k b s t : align k (b :: s) t -> forall a, exists k', k' <= S k /\ align k' (a :: s) t.
Proof.
  intros H. remember (b :: s) as u eqn:E. revert E. induction H as [|k c u t H IH|k c d u t H IH|k c u t H IH|k d u t H IH];
    intros E a; try discriminate; try (injection E as -> ->).
  - exists (S k). split; [lia|now constructor].
  - exists (S k). split; [lia|now constructor].
  - exists (S k). split; [lia|now constructor].
  - destruct (IH E a) as (k' & Hk & HA). exists (S k'). split; [lia|now constructor].
Qed.
Lemma align_ins k b s t : align k (b :: s) t -> exists k', k' <= S k /\ align k' s t.
Proof.
  intros H. remember (b :: s) as u eqn:E. revert E. induction H as [|k c u t H IH|k c d u t H IH|k c u t H IH|k d u t H IH];
    intros E; try discriminate; try (injection E as -> ->).
  - exists (S k). split; [lia|now constructor].
  - exists (S k). split; [lia|now constructor].
  - exists k. split; [lia|assumption].
  - destruct (IH E) as (k' & Hk & HA). exists (S k'). split; [lia|now constructor].
Qed.

Lemma align_e1 s0 s : e1 s0 s -> forall k t, align k s t -> exists k', k' <= S k /\ align k' s0 t.
Proof.
  induction 1 as [a b s|a s|b s|c s0 s H IH]; intros k t HA.
  - eapply align_sub; eauto.
  - exists (S k). split; [lia|now constructor].
  - eapply align_ins; eauto.
  - remember (c :: s) as u eqn:E. revert E. induction HA as [|k x u t HA IHA|k x d u t HA IHA|k x u t HA IHA|k d u t HA IHA];
      intros E; try discriminate; try (injection E as -> ->).
    + destruct (IH _ _ HA) as (k' & Hk & H'). exists k'. split; [lia|now constructor].
    + destruct (IH _ _ HA) as (k' & Hk & H'). exists (S k'). split; [lia|now constructor].
    + destruct (IH _ _ HA) as (k' & Hk & H'). exists (S k'). split; [lia|now constructor].
    + destruct (IHA E) as (k' & Hk & H'). exists (S k'). split; [lia|now constructor].
Qed.

Lemma edits_align k s t : edits k s t -> exists k', k' <= k /\ align k' s t.
Proof.
  induction 1 as [s|k s u t H1 H2 (k' & Hk & HA)].
  - exists 0. split; [lia|apply align_refl].
  - apply edit1_e1 in H1. destruct (align_e1 s u H1 _ _ HA) as (k2 & Hk2 & HA2). exists k2. split; [lia|auto].
Qed.

Lemma edits_cons k s t c : edits k s t -> edits k (c :: s) (c :: t).
Proof.
  induction 1; econstructor; eauto. apply edit1_e1. constructor. now apply edit1_e1.
Qed.
Lemma align_edits k s t : align k s t -> edits k s t.
Proof.
  induction 1 as [|k a s t H IH|k a b s t H IH|k a s t H IH|k b s t H IH].
  - constructor.
  - now apply edits_cons.
  - apply E_one with (b :: s); [apply edit1_e1; constructor|]. now apply edits_cons.
  - apply E_one with s; [apply edit1_e1; constructor|assumption].
  - apply E_one with (b :: s); [apply edit1_e1; constructor|]. now apply edits_cons.
Qed.

(** ** The recurrence *)
Fixpoint lev (s : str) : str -> nat :=
  match s with
  | [] => fun t => length t
  | a :: s' =>
      fix levt (t : str) : nat :=
        match t with
        | [] => S (length s')
        | b :: t' => minimum (levt t' + 1) (lev s' (b :: t') + 1) (lev s' t' + (if Nat.eqb a b then 0 else 1))
        end
  end.

Lemma lev_nil_r s : lev s [] = length s.
Proof. destruct s; reflexivity. Qed.
Lemma lev_cons a s b t : lev (a :: s) (b :: t) =
  minimum (lev (a :: s) t + 1) (lev s (b :: t) + 1) (lev s t + (if Nat.eqb a b then 0 else 1)).
Proof. reflexivity. Qed.

Lemma lev_align s : forall t, align (lev s t) s t.
Proof.
  induction s as [|a s IH]; intros t.
  - cbn. induction t; cbn; constructor; auto.
  - induction t as [|b t IHt].
    + rewrite lev_nil_r. cbn. constructor. clear. induction s; cbn; constructor; auto.
    + rewrite lev_cons. unfold minimum.
      destruct (Nat.min_spec (lev (a :: s) t + 1)
        (Nat.min (lev s (b :: t) + 1) (lev s t + (if Nat.eqb a b then 0 else 1)))) as [[_ ->]|[_ ->]].
      * rewrite Nat.add_1_r. now constructor.
      * destruct (Nat.min_spec (lev s (b :: t) + 1) (lev s t + (if Nat.eqb a b then 0 else 1))) as [[_ ->]|[_ ->]].
        -- rewrite Nat.add_1_r. now constructor.
        -- destruct (Nat.eqb_spec a b) as [->|N].
           ++ rewrite Nat.add_0_r. now constructor.
           ++ rewrite Nat.add_1_r. now constructor.
Qed.

Lemma lev_step_l s : forall a t, lev (a :: s) t <= lev s t + 1.
Proof.
  intros a t. destruct t as [|b t]; [rewrite !lev_nil_r; cbn; lia|].
  rewrite lev_cons. unfold minimum. lia.
Qed.
Lemma lev_step_r s : forall b t, lev s (b :: t) <= lev s t + 1.
Proof.
  intros b t. destruct s as [|a s]; [cbn; lia|]. rewrite lev_cons. unfold minimum. lia.
Qed.
Lemma lev_min k s t : align k s t -> lev s t <= k.
Proof.
  induction 1 as [|k a s t H IH|k a b s t H IH|k a s t H IH|k b s t H IH].
  - reflexivity.
  - rewrite lev_cons, Nat.eqb_refl. unfold minimum. lia.
  - rewrite lev_cons. unfold minimum. destruct (Nat.eqb a b); lia.
  - pose proof (lev_step_l s a t). lia.
  - pose proof (lev_step_r s b t). lia.
Qed.

Lemma lev_distance s t : edit_distance s t (lev s t).
Proof.
  split; [apply align_edits, lev_align|]. intros k' H. apply edits_align in H as (k2 & Hk & HA).
  apply lev_min in HA. lia.
Qed.

Lemma edit1_rev s t : edit1 s t -> edit1 (rev s) (rev t).
Proof.
  intros (l & r & H). exists (rev r), (rev l).
  destruct H as [(a & b & -> & ->)|[(a & -> & ->)|(b & -> & ->)]];
    rewrite !rev_app_distr; cbn [rev]; rewrite <- ?app_assoc; cbn [app].
  - left. now exists a, b.
  - right; left. now exists a.
  - right; right. now exists b.
Qed.
Lemma edits_rev k s t : edits k s t -> edits k (rev s) (rev t).
Proof. induction 1; econstructor; eauto. now apply edit1_rev. Qed.
Lemma distance_rev s t k : edit_distance (rev s) (rev t) k -> edit_distance s t k.
Proof.
  intros [H1 H2]. split.
  - apply edits_rev in H1. now rewrite !rev_involutive in H1.
  - intros k' H. apply H2. now apply edits_rev.
Qed.

(** ** The table *)
Lemma length_set k v d : length (set_nth k v d) = length d.
Proof. revert k; induction d; intros [|k]; cbn; auto. Qed.
Lemma get_set_eq k v d : k < length d -> get (set_nth k v d) k = v.
Proof.
  unfold get. revert k; induction d; intros [|k] H; cbn in *; auto; try lia. apply IHd. lia.
Qed.
Lemma get_set_neq k k' v d : k <> k' -> get (set_nth k v d) k' = get d k'.
Proof.
  unfold get. revert k k'; induction d; intros [|k] [|k'] H; cbn; auto; try lia.
Qed.

Lemma for_range_inv {T} (P : nat -> T -> Prop) (f : nat -> T -> T) c : forall a s,
  P a s -> (forall k x, a <= k < a + c -> P k x -> P (k + 1) (f k x)) ->
  P (a + c) (for_range a c f s).
Proof.
  induction c as [|c IH]; intros a s HP HS; cbn [for_range].
  - now rewrite Nat.add_0_r.
  - replace (a + S c) with (a + 1 + c) by lia. apply IH.
    + apply HS; [lia|assumption].
    + intros k x Hk. apply HS. lia.
Qed.

Lemma idx_inj n i j i' j' : i < n -> i' < n -> j * n + i = j' * n + i' -> i = i' /\ j = j'.
Proof. intros. assert (j = j') by nia. subst. split; lia. Qed.
Lemma idx_bound n m i j : i < n -> j < m -> j * n + i < m * n.
Proof. intros. nia. Qed.

Section Table.
Variables s t : str.
Let n := length s + 1.
Let m := length t + 1.
Definition D (i j : nat) : nat := lev (rev (firstn i s)) (rev (firstn j t)).

Lemma D_0 i : i <= length s -> D i 0 = i.
Proof. intros H. unfold D. cbn [firstn rev]. rewrite lev_nil_r, rev_length, firstn_length. lia. Qed.
Lemma D_0' j : j <= length t -> D 0 j = j.
Proof. intros H. unfold D. cbn [firstn rev lev]. rewrite rev_length, firstn_length. lia. Qed.

Lemma firstn_S {A} (l : list A) i d : i < length l -> firstn (S i) l = firstn i l ++ [nth i l d].
Proof.
  revert i. induction l as [|a l IH]; intros [|i] H; cbn in *; try lia; auto.
  f_equal. apply IH. lia.
Qed.

Lemma D_rec i j : 1 <= i <= length s -> 1 <= j <= length t ->
  D i j = minimum (D i (j - 1) + 1) (D (i - 1) j + 1)
    (D (i - 1) (j - 1) + (if Nat.eqb (nth (i - 1) s 0) (nth (j - 1) t 0) then 0 else 1)).
Proof.
  intros Hi Hj. unfold D. destruct i as [|i]; [lia|]. destruct j as [|j]; [lia|].
  rewrite !Nat.sub_succ, !Nat.sub_0_r.
  rewrite (firstn_S s i 0) by lia. rewrite (firstn_S t j 0) by lia.
  rewrite !rev_app_distr. cbn [rev app]. apply lev_cons.
Qed.

(** Entries filled after columns < i complete and column i up to row j. *)
Definition filled (i j : nat) (d : list nat) : Prop :=
  length d = m * n /\
  forall i' j', i' < n -> j' < m -> i' < i \/ i' = i /\ j' < j \/ i' = 0 \/ j' = 0 ->
    get d (j' * n + i') = D i' j'.

Lemma filled_cell i j d : 1 <= i < n -> 1 <= j < m -> filled i j d -> filled i (j + 1) (cell s t n i j d).
Proof.
  intros Hi Hj [HL HF]. unfold cell. split; [now rewrite length_set|].
  intros i' j' Hi' Hj' HC.
  destruct (Nat.eq_dec (j * n + i) (j' * n + i')) as [E|N].
  - apply idx_inj in E as [<- <-]; try lia. rewrite get_set_eq by (rewrite HL; apply idx_bound; lia).
    rewrite (HF i (j - 1)) by lia.
    replace (j * n + i - 1) with (j * n + (i - 1)) by lia.
    replace ((j - 1) * n + i - 1) with ((j - 1) * n + (i - 1)) by (apply Nat.add_sub_assoc; lia).
    rewrite (HF (i - 1) j) by lia. rewrite (HF (i - 1) (j - 1)) by lia.
    symmetry. apply D_rec; unfold n, m in *; lia.
  - rewrite get_set_neq by assumption. apply HF; auto.
    destruct HC as [?|[[-> ?]|?]]; auto. assert (j' <> j) by (intros ->; apply N; reflexivity). lia.
Qed.

Lemma levenshtein_lev : length s <> 0 -> length t <> 0 ->
  levenshtein s t = Some (lev (rev s) (rev t)).
Proof.
  intros Hs Ht. unfold levenshtein. fold n m.
  destruct (Nat.eqb_spec n 1) as [E|_]; [unfold n in E; lia|].
  destruct (Nat.eqb_spec m 1) as [E|_]; [unfold m in E; lia|]. cbn [orb].
  set (d1 := for_range 0 n _ _).
  assert (H1 : length d1 = m * n /\ forall k, k < n -> get d1 k = k).
  { unfold d1. pose proof (for_range_inv (fun a d => length d = m * n /\ forall k, k < a -> get d k = k)
      (fun k d => set_nth k k d) n 0 (repeat 0 (m * n))) as HX. cbv beta in HX. cbn [Nat.add] in HX. apply HX.
    - rewrite repeat_length. split; [reflexivity|lia].
    - intros k d Hk [HL HF]. split; [now rewrite length_set|]. intros k' Hk'.
      destruct (Nat.eq_dec k k') as [<-|N].
      + apply get_set_eq. rewrite HL. unfold m. nia.
      + rewrite get_set_neq by assumption. apply HF. lia. }
  destruct H1 as [L1 F1]. set (d2 := for_range 0 m _ _).
  assert (H2 : filled 1 1 d2).
  { unfold d2. pose proof (for_range_inv (fun a d => length d = m * n /\ (forall k, k < n -> get d k = k)
        /\ forall j, j < a -> get d (j * n) = j)
      (fun k d => set_nth (k * n) k d) m 0 d1) as HX. cbv beta in HX. cbn [Nat.add] in HX.
    destruct HX as (HL & HR & HC).
    - repeat split; auto. lia.
    - intros k d Hk (HL & HR & HC). split; [now rewrite length_set|]. split.
      + intros k' Hk'. destruct (Nat.eq_dec (k * n) k') as [E|N].
        * subst k'. assert (k = 0) by nia. subst k. rewrite get_set_eq; [reflexivity|]. rewrite HL. unfold m, n. nia.
        * rewrite get_set_neq by assumption. now apply HR.
      + intros j Hj. destruct (Nat.eq_dec k j) as [<-|N].
        * apply get_set_eq. rewrite HL. unfold n in *. nia.
        * rewrite get_set_neq by (unfold n in *; nia). apply HC. lia.
    - split; [assumption|]. intros i' j' Hi' Hj' Hor.
      assert (i' = 0 \/ j' = 0) as [->| ->] by lia.
      + rewrite Nat.add_0_r, HC by assumption. symmetry. apply D_0'. unfold m in *; lia.
      + cbn [Nat.mul Nat.add]. rewrite HR by assumption. symmetry. apply D_0. unfold n in *; lia. }
  set (d3 := for_range 1 (n - 1) _ _).
  assert (H3 : filled n 1 d3).
  { unfold d3. pose proof (for_range_inv (fun i d => filled i 1 d)
      (fun i d => for_range 1 (m - 1) (fun j d => cell s t n i j d) d) (n - 1) 1 d2 H2) as HX. cbv beta in HX.
    replace (1 + (n - 1)) with n in HX by (unfold n; lia). apply HX. clear HX.
    intros i d Hi Hd.
    pose proof (for_range_inv (fun j d => filled i j d) (fun j d => cell s t n i j d) (m - 1) 1 d Hd) as HX.
    cbv beta in HX. replace (1 + (m - 1)) with m in HX by (unfold m; lia).
    assert (HM : filled i m (for_range 1 (m - 1) (fun j d => cell s t n i j d) d)).
    { apply HX. intros j d' Hj. apply filled_cell; lia. }
    destruct HM as [HL HF]. split; [assumption|]. intros i' j' Hi' Hj' HC. apply HF; auto. lia. }
  destruct H3 as [_ HF]. f_equal.
  replace (n * m - 1) with ((m - 1) * n + (n - 1)) by (unfold n, m; nia).
  rewrite HF by (unfold n, m; lia). unfold D.
  rewrite !firstn_all2 by (unfold n, m; lia). reflexivity.
Qed.
End Table.

Lemma str_eqb_spec a b : str_eqb a b = true <-> a = b.
Proof.
  revert b; induction a as [|x a IH]; intros [|z b]; cbn; try (split; congruence).
  rewrite andb_true_iff, Nat.eqb_eq, IH. split; [intros [-> ->]; reflexivity|intros [= -> ->]; auto].
Qed.
