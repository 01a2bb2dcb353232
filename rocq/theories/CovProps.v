(** Theorems about the coverage models of a register model. *)
From Coq Require Import List Bool Arith ZArith Lia.
From Verif Require Import Prelude ResourceModel ResourceSpec ResourceProofs ResourceProps CovModel CovSpec.
Import ListNotations.
Local Open Scope Z_scope.

Section TreeInd.
Context (P : tree -> Prop) (H : forall b rs ms bs, Forall P bs -> P (Block b rs ms bs)).
Fixpoint tree_ind' (t : tree) : P t :=
  let '(Block b rs ms bs) := t in
  H b rs ms bs ((fix go l : Forall P l := match l with [] => Forall_nil P | t :: l => Forall_cons t (tree_ind' t) (go l) end) bs).
End TreeInd.

(** after setting: [e] switched or untouched *)
Definition setto (h h' : covers) (e : nat) (m : Z) : Prop := h' e = Cover (has_cover (h e)) (Z.land (has_cover (h e)) m).
Lemma set_element_eq h e m : fst (set_element h e m) = upd h e (Cover (has_cover (h e)) (Z.land (has_cover (h e)) m)).
Proof. unfold set_element. destruct (m =? 0) eqn:E; auto. apply Z.eqb_eq in E. subst. cbn. now rewrite Z.land_0_r. Qed.
Lemma element_at h e m : setto h (fst (set_element h e m)) e m.
Proof. unfold setto. now rewrite set_element_eq, upd_eq. Qed.
Lemma element_off h e m x : x <> e -> fst (set_element h e m) x = h x.
Proof. intros N. now rewrite set_element_eq, upd_neq. Qed.

(** a loop of operations, each of which switches its part and leaves the others alone *)
Lemma loop_on {A} (f : covers -> A -> covers) (part : A -> nat -> Prop) m (l : list A) :
  Forall (fun a => forall h, (forall e, part a e -> setto h (f h a) e m) /\ (forall e, ~ part a e -> f h a e = h e)) l ->
  (forall a e, In a l -> part a e \/ ~ part a e) ->
  forall h, (forall e, (exists a, In a l /\ part a e) -> setto h (fold_left f l h) e m) /\
            (forall e, (forall a, In a l -> ~ part a e) -> fold_left f l h e = h e).
Proof.
  induction l as [|a l IH]; intros F D h; [split; [intros e (a & [] & _)|reflexivity]|].
  inversion F as [|? ? Fa Fl]; subst. cbn [fold_left]. destruct (Fa h) as [F1 F2].
  destruct (IH Fl (fun a e I => D a e (or_intror I)) (f h a)) as [I1 I2].
  assert (X : forall e, (exists b, In b l /\ part b e) \/ forall b, In b l -> ~ part b e).
  { intros e. clear -D. induction l as [|b l IHl]; [right; intros b []|].
    destruct (D b e) as [Y|Y]; [cbn; auto| |].
    - left. exists b. cbn. auto.
    - destruct IHl as [(c & I & Pc)|N]. { intros c e' I. apply D. cbn in *. tauto. }
      + left. exists c. cbn. auto.
      + right. intros c [<-|I]; auto. }
  assert (Hh : forall e, has_cover (f h a e) = has_cover (h e)).
  { intros e. destruct (D a e (or_introl eq_refl)) as [Y|Y]; [rewrite (F1 _ Y)|rewrite (F2 _ Y)]; reflexivity. }
  split.
  - intros e (b & [->|I] & Pb).
    + destruct (X e) as [Y|Y].
      * pose proof (I1 e Y) as Q. unfold setto in *. now rewrite Q, !Hh.
      * unfold setto. rewrite (I2 e Y). now apply F1.
    + assert (Q : setto (f h a) (fold_left f l (f h a)) e m) by (apply I1; eauto). unfold setto in *. now rewrite Q, !Hh.
  - intros e N. rewrite I2 by (intros b I; apply N; now right). apply F2, N. now left.
Qed.

Lemma within_dec e : forall t, within e t \/ ~ within e t.
Proof.
  induction t as [b rs ms bs IH] using tree_ind'.
  destruct (Nat.eq_dec e b) as [->|N1]; [left; constructor|].
  destruct (in_dec Nat.eq_dec e rs) as [I|N2]; [left; now apply within_reg|].
  destruct (in_dec Nat.eq_dec e ms) as [I|N3]; [left; now apply within_mem|].
  assert (X : (exists t, In t bs /\ within e t) \/ forall t, In t bs -> ~ within e t).
  { clear -IH. induction IH as [|t bs D F IHl]; [right; intros t []|]. destruct D as [Y|Y]; [left; exists t; cbn; auto|].
    destruct IHl as [(u & I & W)|N]; [left; exists u; cbn; auto|right; intros u [<-|I]; auto]. }
  destruct X as [(t & I & W)|N4]; [left; now apply within_blk with t|].
  right. intros W. inversion W; subst; try contradiction. eapply N4; eauto.
Qed.

Lemma set_block_on m : forall t h, (forall e, within e t -> setto h (fst (set_block h t m)) e m) /\
  (forall e, ~ within e t -> fst (set_block h t m) e = h e).
Proof.
  induction t as [b rs ms bs IH] using tree_ind'. intros h. cbn [set_block]. cbv zeta. cbn [fst].
  set (h1 := upd h b _). set (h2 := fold_left (fun h rg => fst (set_element h rg m)) rs h1). set (h3 := fold_left (fun h mem => fst (set_element h mem m)) ms h2).
  set (h4 := fold_left (fun h blk => fst (set_block h blk m)) bs h3).
  destruct (loop_on (fun h rg => fst (set_element h rg m)) (fun a e => e = a) m rs) with (h := h1) as [R1 R2].
  { apply Forall_forall. intros a _ g. split; [intros e ->; apply element_at|intros e N; now apply element_off]. }
  { intros a e _. destruct (Nat.eq_dec e a); auto. }
  fold h2 in R1, R2.
  destruct (loop_on (fun h rg => fst (set_element h rg m)) (fun a e => e = a) m ms) with (h := h2) as [M1 M2].
  { apply Forall_forall. intros a _ g. split; [intros e ->; apply element_at|intros e N; now apply element_off]. }
  { intros a e _. destruct (Nat.eq_dec e a); auto. }
  fold h3 in M1, M2.
  destruct (loop_on (fun h blk => fst (set_block h blk m)) (fun t e => within e t) m bs) with (h := h3) as [B1 B2].
  { exact IH. } { intros a e _. apply within_dec. }
  fold h4 in B1, B2.
  assert (S1 : forall e, setto h h1 e m \/ h1 e = h e /\ e <> b).
  { intros e. destruct (Nat.eq_dec e b) as [->|N]; [left; unfold setto, h1; now rewrite upd_eq|right; split; auto; unfold h1; now rewrite upd_neq]. }
  assert (S2 : forall e, setto h1 h2 e m \/ h2 e = h1 e /\ ~ In e rs).
  { intros e. destruct (in_dec Nat.eq_dec e rs) as [I|N]; [left; apply R1; eauto|right; split; auto; apply R2; intros a I ->; auto]. }
  assert (S3 : forall e, setto h2 h3 e m \/ h3 e = h2 e /\ ~ In e ms).
  { intros e. destruct (in_dec Nat.eq_dec e ms) as [I|N]; [left; apply M1; eauto|right; split; auto; apply M2; intros a I ->; auto]. }
  assert (S4 : forall e, setto h3 h4 e m \/ h4 e = h3 e /\ forall t, In t bs -> ~ within e t).
  { intros e. destruct (within_dec e (Block b [] [] bs)) as [W|N].
    - inversion W; subst; try contradiction.
      + destruct (within_dec b (Block (S b) [] [] bs)) as [W'|N'].
        * inversion W'; subst; try contradiction; [lia|left; apply B1; eauto].
        * right. assert (Q : forall t, In t bs -> ~ within b t) by (intros t I W'; apply N'; now apply within_blk with t). split; auto.
      + left. apply B1. eauto.
    - right. assert (Q : forall t, In t bs -> ~ within e t) by (intros t I W'; apply N; now apply within_blk with t). split; auto. }
  unfold setto in *.
  split; intros e W; specialize (S1 e); specialize (S2 e); specialize (S3 e); specialize (S4 e).
  - destruct S4 as [E4|[E4 N4]], S3 as [E3|[E3 N3]], S2 as [E2|[E2 N2]], S1 as [E1|[E1 N1]];
      rewrite ?E4, ?E3, ?E2, ?E1; cbn [has_cover cover_on]; rewrite ?E3, ?E2, ?E1; cbn [has_cover cover_on]; rewrite ?E2, ?E1; cbn [has_cover cover_on]; rewrite ?E1; cbn [has_cover cover_on]; auto.
    exfalso. inversion W; subst; eauto. eapply N4; eauto.
  - rewrite (B2 e). 2:{ intros t I W'. apply W. now apply within_blk with t. }
    rewrite (M2 e). 2:{ intros a I ->. apply W. now apply within_mem. }
    rewrite (R2 e). 2:{ intros a I ->. apply W. now apply within_reg. }
    unfold h1. rewrite upd_neq; auto. intros ->. apply W. constructor.
Qed.

(** * C224 *)
(** Setting at a block switches the models of exactly what is within: those present and
    asked for are on, all others off. What is present does not change. The block returns
    what is now on in it. *)
Theorem C224_set : forall h t m,
  let h' := fst (set_block h t m) in
  (forall e i, within e t -> Z.testbit (cover_on (h' e)) i = Z.testbit (has_cover (h e)) i && Z.testbit m i) /\
  (forall e, ~ within e t -> cover_on (h' e) = cover_on (h e)) /\
  (forall e, has_cover (h' e) = has_cover (h e)) /\
  (let '(Block b _ _ _) := t in snd (set_block h t m) = Z.land (has_cover (h b)) m).
Proof.
  intros h t m h'. destruct (set_block_on m t h) as [W N]. fold h' in W, N. repeat split.
  - intros e i I. rewrite (W e I). cbn [cover_on]. apply Z.land_spec.
  - intros e I. now rewrite N.
  - intros e. destruct (within_dec e t) as [I|I]; [now rewrite (W e I)|now rewrite N].
  - destruct t as [b rs ms bs]. specialize (W b (within_self b rs ms bs)). unfold h' in W. cbn [set_block] in *. cbv zeta in *. cbn [fst snd] in *. now rewrite W.
Qed.
Print Assumptions C224_set.

Lemma present_new cs e m i : present (cs ++ [New e m]) e i <-> Z.testbit m i = true.
Proof.
  split.
  - intros (c1 & c & c2 & m' & E & K & T & N). destruct c2 as [|x c2] using rev_ind.
    + apply app_inj_tail in E. destruct E as [_ <-]. destruct K as [K|K]; [|discriminate]. injection K as ->. auto.
    + rewrite app_comm_cons, app_assoc in E. apply app_inj_tail in E. destruct E as [_ <-]. elim (N m). apply in_or_app. cbn. auto.
  - intros T. exists cs, (New e m), [], m. repeat split; auto.
Qed.
Lemma present_step cs c e i : (forall m, c <> New e m) ->
  present (cs ++ [c]) e i <-> present cs e i \/ exists m, c = AddCoverage e m /\ Z.testbit m i = true.
Proof.
  intros NN. split.
  - intros (c1 & x & c2 & m' & E & K & T & N). destruct c2 as [|y c2 _] using rev_ind.
    + apply app_inj_tail in E. destruct E as [_ <-]. destruct K as [K|K]; [now elim (NN m')|eauto].
    + rewrite app_comm_cons, app_assoc in E. apply app_inj_tail in E. destruct E as [-> <-]. left. exists c1, x, c2, m'. repeat split; auto.
      intros m I. apply (N m). apply in_or_app. auto.
  - intros [(c1 & x & c2 & m' & -> & K & T & N)|(m & -> & T)].
    + exists c1, x, (c2 ++ [c]), m'. rewrite <- app_assoc. repeat split; auto. intros m I. apply in_app_or in I.
      destruct I as [I|[->|[]]]; [now apply (N m)|now elim (NN m)].
    + exists cs, (AddCoverage e m), [], m. repeat split; auto.
Qed.
Lemma on_concerned cs c e i : concerns c e -> is_on (cs ++ [c]) e i <-> exists m, switches c e m /\ Z.testbit m i = true /\ present cs e i.
Proof.
  intros C. split.
  - intros (c1 & x & c2 & m' & E & K & T & P & N). destruct c2 as [|y c2 _] using rev_ind.
    + apply app_inj_tail in E. destruct E as [-> <-]. eauto.
    + rewrite app_comm_cons, app_assoc in E. apply app_inj_tail in E. destruct E as [_ <-]. elim (N c); auto. apply in_or_app. cbn. auto.
  - intros (m & K & T & P). exists cs, c, [], m. repeat split; auto.
Qed.
Lemma on_other cs c e i : ~ concerns c e -> is_on (cs ++ [c]) e i <-> is_on cs e i.
Proof.
  intros C. split.
  - intros (c1 & x & c2 & m' & E & K & T & P & N). destruct c2 as [|y c2 _] using rev_ind.
    + apply app_inj_tail in E. destruct E as [-> <-]. elim C. destruct c; cbn in *; tauto.
    + rewrite app_comm_cons, app_assoc in E. apply app_inj_tail in E. destruct E as [-> <-]. exists c1, x, c2, m'. repeat split; auto.
      intros c' I. apply N. apply in_or_app. auto.
  - intros (c1 & x & c2 & m' & -> & K & T & P & N). exists c1, x, (c2 ++ [c]), m'. rewrite <- app_assoc. repeat split; auto.
    intros c' I. apply in_app_or in I. destruct I as [I|[->|[]]]; auto.
Qed.
Lemma concerns_dec c e : concerns c e \/ ~ concerns c e.
Proof. destruct c as [e' m|e' m|e' m|t m]; cbn; try (destruct (Nat.eq_dec e' e); auto); auto. apply within_dec. Qed.

Lemma run_bits cs : forall e i,
  (Z.testbit (has_cover (crun cs e)) i = true <-> present cs e i) /\
  (Z.testbit (cover_on (crun cs e)) i = true <-> is_on cs e i).
Proof.
  induction cs as [|c cs IH] using rev_ind; intros e i.
  - cbn. rewrite Z.testbit_0_l. split; split; try discriminate.
    + intros (c1 & c & c2 & m & E & _). destruct c1; discriminate.
    + intros (c1 & c & c2 & m & E & _). destruct c1; discriminate.
  - destruct (IH e i) as [IP IO]. unfold crun in *. rewrite fold_left_app. cbn [fold_left]. set (h := fold_left cstep cs _) in *.
    assert (SW : forall m, switches c e m -> setto h (cstep h c) e m).
    { intros m S0. destruct c as [e' m'|e' m'|e' m'|t m']; cbn in S0; try contradiction; destruct S0 as [W ->]; cbn [cstep].
      - subst. apply element_at. - now apply set_block_on. }
    destruct (concerns_dec c e) as [C|C].
    + rewrite on_concerned by auto. destruct c as [e' m'|e' m'|e' m'|t m']; cbn in C; try contradiction.
      * subst e'. cbn [cstep]. unfold new_cover. rewrite upd_eq. cbn [has_cover cover_on]. rewrite present_new, Z.testbit_0_l. split; [tauto|].
        split; [discriminate|]. intros (m & [] & _).
      * subst e'. rewrite (SW m') by (cbn; auto). cbn [has_cover cover_on]. rewrite present_step by discriminate. rewrite Z.land_spec, andb_true_iff, IP.
        split; split; [tauto|intros [P|(m & E & _)]; [auto|discriminate]| |].
        -- intros [P T]. exists m'. cbn. auto.
        -- intros (m & [_ <-] & T & P). auto.
      * rewrite (SW m') by (cbn; auto). cbn [has_cover cover_on]. rewrite present_step by discriminate. rewrite Z.land_spec, andb_true_iff, IP.
        split; split; [tauto|intros [P|(m & E & _)]; [auto|discriminate]| |].
        -- intros [P T]. exists m'. cbn. auto.
        -- intros (m & [_ <-] & T & P). auto.
    + rewrite on_other by auto. destruct c as [e' m'|e' m'|e' m'|t m']; cbn in C; cbn [cstep].
      * unfold new_cover. rewrite upd_neq by congruence. rewrite present_step by congruence. rewrite IP, IO.
        split; [|tauto]. split; [tauto|intros [P|(m & E & _)]; [auto|discriminate]].
      * unfold add_coverage. rewrite present_step by discriminate. destruct (Nat.eq_dec e e') as [<-|N].
        -- rewrite upd_eq. cbn [has_cover cover_on]. rewrite Z.lor_spec, orb_true_iff, IP, IO. split; [|tauto].
           split; [intros [P|T]; [auto|right; eauto]|intros [P|(m & E & T)]; [auto|right; now injection E as ->]].
        -- rewrite upd_neq by auto. rewrite IP, IO. split; [|tauto]. split; [tauto|intros [P|(m & E & _)]; [auto|congruence]].
      * rewrite element_off by congruence. rewrite present_step by discriminate. rewrite IP, IO.
        split; [|tauto]. split; [tauto|intros [P|(m & E & _)]; [auto|discriminate]].
      * rewrite (proj2 (set_block_on m' t h)) by auto. rewrite present_step by discriminate. rewrite IP, IO.
        split; [|tauto]. split; [tauto|intros [P|(m & E & _)]; [auto|discriminate]].
Qed.

Lemma land_all a m : (Z.land a m =? m) = true <-> forall i, Z.testbit m i = true -> Z.testbit a i = true.
Proof.
  rewrite Z.eqb_eq. split.
  - intros E i T. rewrite <- E, Z.land_spec in T. now apply andb_true_iff in T.
  - intros F. apply Z.bits_inj'. intros i _. rewrite Z.land_spec. destruct (Z.testbit m i) eqn:T; [now rewrite F|apply andb_false_r].
Qed.

(** In every history has_coverage tells whether all the models asked for are present, and
    get_coverage whether all are present and on. *)
Theorem C224_has : forall cs e m, has_coverage (crun cs) e m = true <-> forall i, Z.testbit m i = true -> present cs e i.
Proof. intros cs e m. unfold has_coverage. rewrite land_all. split; intros H i T; apply run_bits; auto. Qed.
Print Assumptions C224_has.
Theorem C224_get : forall cs e m, get_coverage (crun cs) e m = true <->
  forall i, Z.testbit m i = true -> present cs e i /\ is_on cs e i.
Proof.
  intros cs e m. unfold get_coverage. destruct (has_coverage (crun cs) e m) eqn:Q; cbn [negb].
  - rewrite C224_has in Q. rewrite land_all. split; intros H i T; [split; [auto|apply run_bits; auto]|apply run_bits; now apply H].
  - split; [discriminate|]. intros H. assert (has_coverage (crun cs) e m = true) by (apply C224_has; intros i T; now apply H). congruence.
Qed.
Print Assumptions C224_get.

(** A model added is off until coverage is set again; one that is on is present. *)
Theorem C224_added_off : forall cs e m i, ~ is_on cs e i -> ~ is_on (cs ++ [AddCoverage e m]) e i.
Proof. intros cs e m i N. rewrite on_other; auto. Qed.
Print Assumptions C224_added_off.
Theorem C224_on_present : forall cs e i, is_on cs e i -> present cs e i.
Proof.
  intros cs e i (c1 & c & c2 & m & -> & K & _ & (d1 & d & d2 & m' & -> & K' & T' & N') & N).
  exists d1, d, (d2 ++ c :: c2), m'. rewrite <- app_assoc. repeat split; auto.
  intros m'' I. apply in_app_or in I. destruct I as [I|[->|I]]; [now apply (N' m'')|contradiction|].
  now apply (N (New e m'')).
Qed.
Print Assumptions C224_on_present.

(** UVM_CVR_ALL, -1, stands for all models there could ever be: unless it, or another
    negative value, was given to the constructor or to add_coverage, has_coverage(UVM_CVR_ALL)
    and get_coverage(UVM_CVR_ALL) are false, get_coverage() of a block included. *)
Theorem C224_all_limit : forall cs e, (forall e' m, In (New e' m) cs \/ In (AddCoverage e' m) cs -> 0 <= m) ->
  has_coverage (crun cs) e (-1) = false /\ get_coverage (crun cs) e (-1) = false.
Proof.
  intros cs e H. assert (X : has_coverage (crun cs) e (-1) = false).
  { destruct (has_coverage (crun cs) e (-1)) eqn:Q; auto. exfalso.
    assert (P : 0 <= has_cover (crun cs e)).
    { clear Q. induction cs as [|c cs IH] using rev_ind; [cbn; lia|]. unfold crun in *. rewrite fold_left_app. cbn [fold_left]. set (h := fold_left cstep cs _) in *.
      assert (IH' : 0 <= has_cover (h e)). { apply IH. intros e' m [I|I]; apply (H e' m); [left|right]; apply in_or_app; auto. }
      destruct c as [e' m|e' m|e' m|t m]; cbn [cstep].
      - unfold new_cover, upd. destruct (Nat.eqb e e'); auto. cbn. apply (H e'). left. apply in_or_app. cbn. auto.
      - unfold add_coverage, upd. destruct (Nat.eqb_spec e e') as [->|]; auto. cbn. apply Z.lor_nonneg. split; auto. apply (H e'). right. apply in_or_app. cbn. auto.
      - rewrite set_element_eq. unfold upd. destruct (Nat.eqb_spec e e') as [->|]; auto.
      - pose proof (C224_set h t m) as (_ & _ & HH & _). now rewrite HH. }
    unfold has_coverage in Q. rewrite Z.land_m1_r in Q. apply Z.eqb_eq in Q. lia. }
  split; auto. unfold get_coverage. now rewrite X.
Qed.
Print Assumptions C224_all_limit.

(** sample_values of a block calls the registers of the block and of all blocks beneath,
    once for each place; not its memories. *)
Inductive reg_at : nat -> tree -> Prop :=
| reg_here r b rs ms bs : In r rs -> reg_at r (Block b rs ms bs)
| reg_below r b rs ms bs t : In t bs -> reg_at r t -> reg_at r (Block b rs ms bs).
Theorem C224_sample_values : forall t r, In r (sample_values t) <-> reg_at r t.
Proof.
  intros t r. induction t as [b rs ms bs IH] using tree_ind'. cbn [sample_values]. rewrite in_app_iff, in_flat_map.
  rewrite Forall_forall in IH. split.
  - intros [I|(t & I & W)]; [now constructor|apply reg_below with t; auto; now apply IH].
  - intros W. inversion W; subst; [auto|]. right. exists t. split; auto. now apply IH.
Qed.
Print Assumptions C224_sample_values.
Fixpoint places (r : nat) (t : tree) : nat :=
  let '(Block _ rs _ bs) := t in (count_occ Nat.eq_dec rs r + list_sum (map (places r) bs))%nat.
Theorem C224_sample_once : forall t r, count_occ Nat.eq_dec (sample_values t) r = places r t.
Proof.
  intros t r. induction t as [b rs ms bs IH] using tree_ind'. cbn [sample_values places]. rewrite count_occ_app. f_equal.
  induction IH as [|t bs E F IHl]; auto. cbn [flat_map map list_sum fold_right]. rewrite count_occ_app, E, IHl. reflexivity.
Qed.
Print Assumptions C224_sample_once.

(** A register has address map coverage, 2, and later field values, 4; the block none. *)
Example C224_example :
  let t := Block 0 [1%nat] [2%nat] [Block 3 [4%nat] [] []] in
  let cs := [New 0 0; New 1 2; New 2 2; New 3 0; New 4 7; SetBlock t 6; AddCoverage 1 4] in
  let h := crun cs in
  map (fun e => get_coverage h e 2) [0; 1; 2; 3; 4]%nat = [false; true; true; false; true] /\
  get_coverage h 1 4 = false /\ has_coverage h 1 4 = true /\ get_coverage h 4 6 = true /\ get_coverage h 4 1 = false /\
  get_coverage (cstep h (SetBlock t (-1))) 1 6 = true /\ get_coverage (cstep h (SetBlock t (-1))) 1 (-1) = false /\
  sample_values t = [1; 4]%nat.
Proof. vm_compute. repeat split. Qed.

(** * C225 *)
(** build_coverage of a register, memory or block, for every history of include_coverage and
    other uses of the resource database that do not write to include_coverage: the first
    include_coverage whose scope matches decides; if there is none it raises. *)
Lemma write_first_other sm path n p' n' v : n <> n' -> forall l,
  find (visible sm path n) (write_first sm p' n' v l) = find (visible sm path n) l.
Proof.
  intros N. induction l as [|r l IH]; auto. cbn [write_first]. destruct (visible sm p' n' r) eqn:E; cbn [find].
  - assert (X : forall w, visible sm path n (RVal (v_name r) (v_scope r) w) = false).
    { intros w. unfold visible in *. cbn. apply andb_true_iff in E. destruct E as [E _]. apply Nat.eqb_eq in E. rewrite E.
      destruct (Nat.eqb_spec n' n); [congruence|reflexivity]. }
    rewrite X. destruct r as [a b c]. specialize (X c). cbn [v_name v_scope] in X. now rewrite X.
  - destruct (visible sm path n r); auto.
Qed.
Definition includes (sm : nat -> nat -> bool) (name full : nat) (o : rdb_op) : bool :=
  match o with DSet scope n _ => Nat.eqb n name && sm scope full | DWrite _ _ _ => false end.
Definition models_of (o : rdb_op) : Z := match o with DSet _ _ m => m | DWrite _ _ _ => 0 end.
Lemma find_app {A} (f : A -> bool) l r : find f (l ++ r) = match find f l with Some x => Some x | None => find f r end.
Proof. induction l as [|x l IH]; cbn; auto. destruct (f x); auto. Qed.
Lemma read_included sm name full ops : (forall p v, ~ In (DWrite p name v) ops) ->
  rdb_read sm (rdb_spec sm ops) full name = option_map models_of (find (includes sm name full) ops).
Proof.
  unfold rdb_read, rdb_spec. induction ops as [|o ops IH] using rev_ind; intros H; auto.
  assert (IH' := IH (fun p v I => H p v (in_or_app _ _ _ (or_introl I)))). clear IH.
  rewrite fold_left_app, find_app. cbn [fold_left]. set (l := fold_left _ ops []) in *. destruct o as [sc n v|p n v]; cbn [rdb_spec1].
  - rewrite find_app. cbn [find includes]. unfold visible at 2. cbn [v_name v_scope].
    destruct (find (visible sm full name) l), (find (includes sm name full) ops); cbn in *; try congruence.
    destruct (Nat.eqb n name && sm sc full); reflexivity.
  - rewrite write_first_other. 2:{ intros ->. apply (H p v). apply in_or_app. cbn. auto. }
    rewrite IH'. cbn [find includes]. destruct (find (includes sm name full) ops); reflexivity.
Qed.

Theorem C225_first : forall smatch name ops full models, (forall p v, ~ In (DWrite p name v) ops) ->
  let s := rrun smatch (map rdb_rop ops) in
  match build_coverage smatch name s full models with
  | Some r => exists o1 scope m o2, ops = o1 ++ DSet scope name m :: o2 /\ smatch scope full = true /\
      (forall scope' m', In (DSet scope' name m') o1 -> smatch scope' full = false) /\
      forall i, Z.testbit r i = Z.testbit m i && Z.testbit models i
  | None => forall scope m, In (DSet scope name m) ops -> smatch scope full = false
  end.
Proof.
  intros smatch name ops full models H s. unfold build_coverage. unfold s. rewrite C37_resource_db, read_included by auto.
  assert (F : match find (includes smatch name full) ops with
              | Some o => exists o1 o2, ops = o1 ++ o :: o2 /\ includes smatch name full o = true /\ forall x, In x o1 -> includes smatch name full x = false
              | None => forall x, In x ops -> includes smatch name full x = false end).
  { clear. induction ops as [|o ops IH]; cbn; [intros x []|]. destruct (includes smatch name full o) eqn:E.
    - exists [], ops. repeat split; auto. intros x [].
    - destruct (find (includes smatch name full) ops) as [y|].
      + destruct IH as (o1 & o2 & -> & I & N). exists (o :: o1), o2. repeat split; auto. intros x [<-|J]; auto.
      + intros x [<-|J]; auto. }
  assert (K : forall sc m, includes smatch name full (DSet sc name m) = smatch sc full) by (intros; cbn; now rewrite Nat.eqb_refl).
  destruct (find (includes smatch name full) ops) as [o|]; cbn.
  - destruct F as (o1 & o2 & -> & I & N). destruct o as [sc n m|]; [|discriminate].
    assert (n = name) as ->. { cbn in I. apply andb_true_iff in I. destruct I as [I _]. now apply Nat.eqb_eq. }
    rewrite K in I. exists o1, sc, m, o2. repeat split; auto.
    + intros sc' m' J. rewrite <- (K sc' m'). now apply N.
    + intros i. apply Z.land_spec.
  - intros sc m J. rewrite <- (K sc m). now apply F.
Qed.
Print Assumptions C225_first.

(** So a later include_coverage for one register does not change what an earlier one for all
    registers has chosen. *)
Theorem C225_later : forall smatch name ops scope m full models, (forall p v, ~ In (DWrite p name v) ops) ->
  let s := rrun smatch (map rdb_rop ops) in
  build_coverage smatch name s full models <> None ->
  build_coverage smatch name (include_coverage name s scope m) full models = build_coverage smatch name s full models.
Proof.
  intros smatch name ops scope m full models H s B. unfold s in *.
  assert (E : include_coverage name (rrun smatch (map rdb_rop ops)) scope m = rrun smatch (map rdb_rop (ops ++ [DSet scope name m]))).
  { unfold rrun. rewrite map_app, fold_left_app. reflexivity. }
  rewrite E. unfold build_coverage in *. rewrite C37_resource_db, read_included in B |- *; auto.
  2:{ intros p v I. apply in_app_or in I. destruct I as [I|[I|[]]]; [now apply (H p v)|discriminate]. }
  rewrite C37_resource_db, read_included by auto. rewrite find_app. cbn [find].
  destruct (find (includes smatch name full) ops); [reflexivity|now elim B].
Qed.
Print Assumptions C225_later.

(** Register 1 gets the models of the first call for all, not those of its own; without a
    call that matches there is an exception. *)
Example C225_example :
  let ops := [DSet 5 0 1; DSet 9 0 6; DSet 1 0 7; DSet 2 3 4] in
  let s := rrun all9 (map rdb_rop ops) in
  build_coverage all9 0 s 1 3 = Some 2 /\ build_coverage all9 0 s 5 3 = Some 1 /\
  build_coverage all9 0 (rrun all9 (map rdb_rop [DSet 5 0 1])) 1 (-1) = None.
Proof. vm_compute. auto. Qed.
