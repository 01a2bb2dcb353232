From Coq Require Import List Bool Arith Lia.
From Verif Require Import Prelude XltModel XltSpec.
Import ListNotations.

Section P.
Context (local : nat -> bool) (t : nat).
Notation step := (step local). Notation run := (run local).
Definition with_parent (a : nat) : who := if local t then Xl t else User a.
(** An access that was translated and is done. *)
Definition finished (s : xs) (o : list out) (a : nat) : Prop :=
  parent s a = User a /\ exists r, status s a = Some r /\ In (OBus t a (with_parent a) (Some r)) o.
(** the access being dealt with, by the state of [t] *)
Definition current (s : xs) (o : list out) (D : list nat) (c : option nat) : Prop :=
  match tr s t with
  | TIdle | TSel => c = None /\ requested s = false /\ fifo s = [] /\ chosen o = D /\ sent o = D /\ translated o = D
  | TPeek => exists a, c = Some a /\ requested s = true /\ chosen o = D ++ [a] /\ translated o = D /\ parent s a = User a /\
      ((acc s a = AGranted /\ fifo s = [] /\ sent o = D) \/ (acc s a = ASent /\ fifo s = [a] /\ sent o = D ++ [a]))
  | TBus a => c = Some a /\ requested s = true /\ chosen o = D ++ [a] /\ translated o = D /\ acc s a = ASent /\ fifo s = [a] /\ sent o = D ++ [a] /\
      parent s a = with_parent a /\ (local t = true -> upstream s t = Some (User a))
  | TSelG => False
  | TGet => exists a, c = Some a /\ requested s = true /\ chosen o = D ++ [a] /\ translated o = D ++ [a] /\ acc s a = ASent /\ fifo s = [a] /\ sent o = D ++ [a] /\
      finished s o a
  | TDead => exists a, c = Some a /\ requested s = true /\ chosen o = D ++ [a] /\ translated o = D ++ [a] /\ acc s a = ASent /\ fifo s = [a] /\ sent o = D ++ [a] /\
      In (OBus t a (with_parent a) None) o
  end.
Record inv (s : xs) (o : list out) (D : list nat) (c : option nat) : Prop := Inv {
  i_cur : current s o D c;
  i_nodup : NoDup (chosen o);
  i_done : forall a, In a D -> (acc s a = ADone \/ acc s a = AReturned) /\ finished s o a;
  i_rest : forall a, ~ In a D -> c <> Some a -> (acc s a = ANew \/ acc s a = AReq) /\ parent s a = User a;
  i_arbq : forall a, In a (arbq s) <-> acc s a = AReq;
  i_arbnd : NoDup (arbq s);
  i_fatal : forall a, ~ In (OFatal a) o;
  i_bus : forall u a p r, In (OBus u a p r) o -> u = t /\ p = with_parent a /\ (tr s t <> TDead -> r <> None);
  i_ret : forall a st p, In (ORet a st p) o -> acc s a = AReturned /\ p = User a /\ status s a = st;
  i_retnd : NoDup (returned o)
}.
Lemma proj_app {B} (f : out -> list B) o1 o2 : flat_map f (o1 ++ o2) = flat_map f o1 ++ flat_map f o2.
Proof. apply flat_map_app. Qed.
Lemma in_ret o a : In a (returned o) <-> exists st p, In (ORet a st p) o.
Proof.
  unfold returned. rewrite in_flat_map. split.
  - intros (e & I & H). destruct e; cbn in H; try tauto. destruct H as [->|[]]. eauto.
  - intros (st & p & I). eexists. split; [exact I|]. now left.
Qed.
Lemma cur_acc s o D c a : current s o D c -> c = Some a -> acc s a = AGranted \/ acc s a = ASent.
Proof.
  unfold current. intros H E. destruct (tr s t); try now destruct H.
  - destruct H as (H & _). congruence.
  - destruct H as (H & _). congruence.
  - destruct H as (b & H & _ & _ & _ & _ & [(X & _)|(X & _)]); rewrite H in E; injection E as <-; auto.
  - destruct H as (H & _ & _ & _ & X & _); rewrite H in E; injection E as <-; auto.
  - destruct H as (b & H & _ & _ & _ & X & _); rewrite H in E; injection E as <-; auto.
  - destruct H as (b & H & _ & _ & _ & X & _); rewrite H in E; injection E as <-; auto.
Qed.
(** what an access is, by its state *)
Lemma by_acc s o D c a : inv s o D c ->
  match acc s a with
  | ANew | AReq => ~ In a D /\ c <> Some a
  | AGranted | ASent => c = Some a /\ ~ In a D
  | ADone | AReturned => In a D /\ c <> Some a
  | AFailed => False
  end.
Proof.
  intros I. destruct (in_dec Nat.eq_dec a D) as [J|J].
  - destruct (i_done _ _ _ _ I a J) as ([X|X] & _).
    all: assert (N : c <> Some a) by (intros E; destruct (cur_acc _ _ _ _ a (i_cur _ _ _ _ I) E); congruence); rewrite X; auto.
  - destruct c as [b|]; [destruct (Nat.eq_dec a b) as [<-|N]|].
    + destruct (cur_acc _ _ _ _ a (i_cur _ _ _ _ I) eq_refl) as [X|X]; rewrite X; auto.
    + assert (N2 : Some b <> Some a) by congruence. destruct (i_rest _ _ _ _ I a J N2) as ([X|X] & _); rewrite X; auto.
    + assert (N2 : None <> Some a) by congruence. destruct (i_rest _ _ _ _ I a J N2) as ([X|X] & _); rewrite X; auto.
Qed.
Lemma fin_ext s s' o o' a : finished s o a -> parent s' a = parent s a -> status s' a = status s a -> incl o o' -> finished s' o' a.
Proof. intros (P & r & S & I) E1 E2 Hi. split; [congruence|]. exists r. split; [congruence|auto]. Qed.

Lemma nodup_snoc {A} (l : list A) x : NoDup l -> ~ In x l -> NoDup (l ++ [x]).
Proof. intros N H. apply (NoDup_Add (a := x) (l := l)); [|now split]. rewrite <- (app_nil_r l) at 1. apply Add_app. Qed.
(** The current access keeps everything. *)
Lemma cur_keep s s' o o' D c : current s o D c -> tr s' t = tr s t -> requested s' = requested s -> fifo s' = fifo s -> parent s' = parent s ->
  upstream s' = upstream s -> status s' = status s -> (forall a, c = Some a -> acc s' a = acc s a) ->
  incl o o' -> chosen o' = chosen o -> sent o' = sent o -> translated o' = translated o -> current s' o' D c.
Proof.
  unfold current. intros H E1 E2 E3 E4 E5 E6 E7 In E8 E9 E10. rewrite E1, E2, E3, E4, E5, E8, E9, E10. destruct (tr s t); auto.
  - destruct H as (a & C & H). exists a. rewrite (E7 a C). auto.
  - destruct H as (C & H). rewrite (E7 a C). auto.
  - destruct H as (a & C & H1 & H2 & H3 & H4 & H5 & H6 & F). exists a. rewrite (E7 a C). repeat (split; [assumption|]).
    apply (fin_ext s s' o o'); auto; congruence.
  - destruct H as (a & C & H1 & H2 & H3 & H4 & H5 & H6 & F). exists a. rewrite (E7 a C). repeat (split; [assumption|]). auto.
Qed.
Lemma inv_req s o D c a : inv s o D c -> acc s a = ANew -> inv (w_acc (w_arbq s (arbq s ++ [a])) (upd (acc s) a AReq)) o D c.
Proof.
  intros I Ha. assert (Ba := by_acc _ _ _ _ a I). rewrite Ha in Ba. destruct Ba as (Na & Nc).
  assert (X : forall b, b <> a -> upd (acc s) a AReq b = acc s b) by (intros b N; now apply upd_neq).
  destruct I as [Cu N Do Re Aq An Fa Bu Rt Rn]. split; auto.
  - eapply cur_keep; [exact Cu| | | | | | | |apply incl_refl| | |]; try reflexivity. intros b E. cbn. apply X. congruence.
  - intros b J. cbn. rewrite X by congruence. destruct (Do b J) as (P & F). split; [exact P|]. exact F.
  - intros b J K. cbn. destruct (Nat.eq_dec b a) as [->|Nb]; [rewrite upd_eq|rewrite X by exact Nb].
    + destruct (Re a J K). auto.
    + auto.
  - intros b. cbn. rewrite in_app_iff. destruct (Nat.eq_dec b a) as [->|Nb].
    + rewrite upd_eq. split; [reflexivity|]. intros _. right. now left.
    + rewrite X by exact Nb. rewrite Aq. split; [intros [H|[H|[]]]; congruence|auto].
  - cbn. apply nodup_snoc; [exact An|]. rewrite Aq. congruence.
  - intros b st p H. cbn. destruct (Rt b st p H) as (E & P). rewrite X by congruence. auto.
Qed.
Lemma inv_ret s o D c a : inv s o D c -> acc s a = ADone -> inv (w_acc s (upd (acc s) a AReturned)) (o ++ [ORet a (status s a) (parent s a)]) D c.
Proof.
  intros I Ha. assert (Ba := by_acc _ _ _ _ a I). rewrite Ha in Ba. destruct Ba as (Na & Nc).
  assert (X : forall b, b <> a -> upd (acc s) a AReturned b = acc s b) by (intros b N; now apply upd_neq).
  destruct I as [Cu N Do Re Aq An Fa Bu Rt Rn]. set (o' := o ++ [ORet a (status s a) (parent s a)]).
  assert (Ic : incl o o') by (intros e H; apply in_or_app; now left).
  assert (C1 : chosen o' = chosen o) by (unfold chosen, o'; rewrite proj_app; cbn; apply app_nil_r).
  assert (C2 : sent o' = sent o) by (unfold sent, o'; rewrite proj_app; cbn; apply app_nil_r).
  assert (C3 : translated o' = translated o) by (unfold translated, o'; rewrite proj_app; cbn; apply app_nil_r).
  split; auto.
  - eapply cur_keep; [exact Cu| | | | | | | |exact Ic| | |]; auto. intros b E. cbn. apply X. congruence.
  - now rewrite C1.
  - intros b J. cbn. destruct (Do b J) as (P & F). split; [destruct (Nat.eq_dec b a) as [->|Nb]; [rewrite upd_eq; auto|rewrite X by exact Nb; exact P]|].
    now apply (fin_ext s _ o o').
  - intros b J K. cbn. rewrite X by congruence. auto.
  - intros b. cbn. rewrite Aq. destruct (Nat.eq_dec b a) as [->|Nb]; [rewrite upd_eq; split; congruence|now rewrite X].
  - intros b H. apply in_app_or in H. destruct H as [H|[H|[]]]; [now apply Fa in H|discriminate].
  - intros u b p r H. apply in_app_or in H. destruct H as [H|[H|[]]]; [now apply Bu in H|discriminate].
  - intros b st p H. cbn. apply in_app_or in H. destruct H as [H|[H|[]]].
    + destruct (Rt b st p H) as (E & P). rewrite X by congruence. auto.
    + injection H as <- <- <-. rewrite upd_eq. split; [reflexivity|]. split; [|reflexivity]. now destruct (Do a Na) as (_ & (P & _)).
  - unfold o', returned. rewrite proj_app. cbn. apply nodup_snoc; [exact Rn|]. intros H. apply in_ret in H. destruct H as (st & p & H).
    destruct (Rt _ _ _ H) as (E & _). congruence.
Qed.
(** A step of the current access or of the translation sequence. *)
Lemma inv_move s s' o e D D' c c' : inv s o D c ->
  current s' (o ++ e) D' c' -> NoDup (chosen (o ++ e)) ->
  (forall a, In a D -> In a D') ->
  (forall a, In a D' -> In a D \/ (c = Some a /\ (acc s' a = ADone \/ acc s' a = AReturned) /\ finished s' (o ++ e) a)) ->
  (forall a, c <> Some a -> c' <> Some a -> acc s' a = acc s a) -> (forall a, c <> Some a -> c' <> Some a -> parent s' a = parent s a) -> (forall a, c <> Some a -> c' <> Some a -> status s' a = status s a) ->
  (forall a, c <> Some a -> c' = Some a -> acc s a = AReq /\ acc s' a <> AReq /\ (forall b, In b (arbq s') <-> In b (arbq s) /\ b <> a) /\ NoDup (arbq s')) ->
  (forall a, c = Some a -> acc s' a <> AReq /\ (In a D' \/ c' = Some a)) -> (c <> None \/ c' = None -> arbq s' = arbq s) ->
  (forall a, c = Some a -> c' = Some a \/ c' = None) ->
  (forall x, In x e -> (exists a, x = OGrant a) \/ (exists a, x = OSent a) \/ (exists a r, x = OBus t a (with_parent a) r /\ (r = None -> tr s' t = TDead))) ->
  (tr s' t <> TDead -> tr s t <> TDead) ->
  inv s' (o ++ e) D' c'.
Proof.
  intros I Cu N Inc Do' Ea Ep Es New Old Q Cc He Dead.
  assert (Ic : incl o (o ++ e)) by (intros x H; apply in_or_app; now left).
  assert (NotC : forall a, In a D -> c <> Some a /\ c' <> Some a).
  { intros a J. assert (B := by_acc _ _ _ _ a I). destruct (i_done _ _ _ _ I a J) as ([X|X] & _); rewrite X in B; destruct B as (_ & B).
    all: split; [exact B|]; intros E; destruct (New a B E) as (Y & _); congruence. }
  split; auto.
  - intros a J. destruct (Do' a J) as [K|(_ & P & F)]; [|now split]. destruct (NotC a K) as (N1 & N2).
    destruct (i_done _ _ _ _ I a K) as (P & F). rewrite Ea by auto. split; [exact P|]. apply (fin_ext s _ o); auto.
  - intros a J K. destruct (option_map (Nat.eqb a) c) as [[]|] eqn:E.
    + destruct c as [b|]; [|discriminate]. cbn in E. injection E as E. apply Nat.eqb_eq in E. subst b. destruct (Old a eq_refl) as (_ & [H|H]); tauto.
    + assert (M : c <> Some a) by (intros ->; cbn in E; rewrite Nat.eqb_refl in E; discriminate).
      rewrite Ea, Ep by auto. apply (i_rest _ _ _ _ I); auto.
    + assert (M : c <> Some a) by (intros ->; discriminate E). rewrite Ea, Ep by auto. apply (i_rest _ _ _ _ I); auto.
  - intros a. destruct c as [b|].
    + rewrite Q by (left; discriminate). rewrite (i_arbq _ _ _ _ I). destruct (Nat.eq_dec a b) as [->|Nb].
      * destruct (Old b eq_refl) as (H & _). destruct (cur_acc _ _ _ _ b (i_cur _ _ _ _ I) eq_refl); split; congruence.
      * assert (c' <> Some a) by (destruct (Cc b eq_refl) as [->| ->]; congruence). rewrite Ea by congruence. reflexivity.
    + destruct c' as [b|].
      * assert (X : None <> Some b) by discriminate. destruct (New b X eq_refl) as (N1 & N2 & N3 & _). rewrite N3, (i_arbq _ _ _ _ I).
        destruct (Nat.eq_dec a b) as [->|Nb]; [split; [intros (_ & H); now destruct H|congruence]|]. rewrite Ea by congruence. tauto.
      * rewrite Q by auto. rewrite (i_arbq _ _ _ _ I), Ea by discriminate. reflexivity.
  - destruct c as [b|]; [rewrite Q by (left; discriminate); apply (i_arbnd _ _ _ _ I)|]. destruct c' as [b|].
    + assert (X : None <> Some b) by discriminate. destruct (New b X eq_refl) as (_ & _ & _ & H). exact H.
    + rewrite Q by auto. apply (i_arbnd _ _ _ _ I).
  - intros a H. apply in_app_or in H. destruct H as [H|H]; [now apply (i_fatal _ _ _ _ I) in H|].
    destruct (He _ H) as [(b & E)|[(b & E)|(b & r & E & _)]]; discriminate.
  - intros u a p r H. apply in_app_or in H. destruct H as [H|H].
    + destruct (i_bus _ _ _ _ I _ _ _ _ H) as (-> & -> & K). auto.
    + destruct (He _ H) as [(b & E)|[(b & E)|(b & r' & E & K)]]; try discriminate. injection E as -> -> -> ->. split; [reflexivity|]. split; [reflexivity|]. intros N1 N2. auto.
  - intros a st p H. apply in_app_or in H. destruct H as [H|H].
    + destruct (i_ret _ _ _ _ I _ _ _ H) as (E & -> & <-). assert (B := by_acc _ _ _ _ a I). rewrite E in B. destruct B as (B & _).
      destruct (NotC a B). rewrite Ea, Es by auto. auto.
    + destruct (He _ H) as [(b & E)|[(b & E)|(b & r & E & _)]]; discriminate.
  - unfold returned. rewrite proj_app. assert (Z : flat_map (fun e => match e with ORet a _ _ => [a] | _ => [] end) e = []).
    { clear - He. induction e as [|x e IH]; [reflexivity|]. cbn [flat_map]. rewrite IH by (intros y Y; apply He; now right).
      destruct (He x (or_introl eq_refl)) as [(b & ->)|[(b & ->)|(b & r & -> & _)]]; reflexivity. }
    rewrite Z, app_nil_r. apply (i_retnd _ _ _ _ I).
Qed.
Lemma remove_nth {A} (l : list A) k a : nth_error l k = Some a -> NoDup l ->
  (forall b, In b (firstn k l ++ skipn (S k) l) <-> In b l /\ b <> a) /\ NoDup (firstn k l ++ skipn (S k) l).
Proof.
  intros E N. assert (L : l = firstn k l ++ a :: skipn (S k) l).
  { revert k E. clear N. induction l as [|x l IH]; intros [|k] E; try discriminate E; [injection E as ->; reflexivity|]. cbn. f_equal. now apply IH. }
  set (u := firstn k l) in *. set (v := skipn (S k) l) in *. clearbody u v. subst l. apply NoDup_remove in N. destruct N as (N & M). split; [|exact N].
  intros b. rewrite !in_app_iff in *. cbn. split.
  - intros H. split; [tauto|]. intros ->. tauto.
  - intros ([H|[H|H]] & K); auto. now destruct K.
Qed.
Ltac out_tac := unfold chosen, sent, translated; rewrite ?proj_app; cbn [flat_map app]; rewrite ?app_nil_r.
Lemma app_nil_o (o : list out) : o = o ++ []. Proof. now rewrite app_nil_r. Qed.

Lemma inv_send s o D c a : inv s o D c -> acc s a = AGranted -> fifo s = [] /\ inv (w_fifo (w_acc s (upd (acc s) a ASent)) [a]) (o ++ [OSent a]) D c.
Proof.
  intros I Ha. assert (Ba := by_acc _ _ _ _ a I). rewrite Ha in Ba. destruct Ba as (-> & Na).
  assert (Cu := i_cur _ _ _ _ I). unfold current in Cu. destruct (tr s t) eqn:Et; try (destruct Cu as (Cu & _); discriminate Cu); try now destruct Cu.
  2: destruct Cu as (E & _ & _ & _ & X & _); injection E as <-; congruence.
  2,3: destruct Cu as (b & E & _ & _ & _ & X & _); injection E as <-; congruence.
  destruct Cu as (b & E & R & C1 & C3 & P & [(_ & F & C2)|(X & _)]); injection E as <-; [|congruence]. split; [exact F|].
  apply inv_move with s D (Some a); auto.
  - unfold current. cbn. rewrite Et. exists a. rewrite upd_eq. split; [reflexivity|]. split; [exact R|].
    split; [out_tac; exact C1|]. split; [out_tac; exact C3|]. split; [exact P|]. right. split; [reflexivity|]. split; [reflexivity|]. out_tac. f_equal. exact C2.
  - out_tac. apply (i_nodup _ _ _ _ I).
  - intros b N _. cbn. apply upd_neq. congruence.
  - intros b N M. congruence.
  - intros b E. injection E as <-. cbn. rewrite upd_eq. split; [discriminate|auto].
  - intros x [<-|[]]. right. left. eauto.
Qed.
Lemma inv_run s o D c : inv s o D c -> exists D' c', inv (fst (step s (LRun t))) (o ++ snd (step s (LRun t))) D' c'.
Proof.
  intros I. assert (Cu := i_cur _ _ _ _ I). unfold current in Cu. cbn [XltModel.step]. destruct (tr s t) eqn:Et; cbn [fst snd]; try (rewrite app_nil_r; exists D, c; exact I).
  - destruct Cu as (-> & R & F & C1 & C2 & C3). unfold ask. rewrite R. exists D, None. apply inv_move with s D None; auto.
    + unfold current. cbn. rewrite upd_eq. repeat split; auto; out_tac; auto.
    + out_tac. apply (i_nodup _ _ _ _ I).
    + discriminate.
    + discriminate.
    + intros x [].
    + rewrite Et. discriminate.
  - destruct Cu as (a & -> & R & C1 & C3 & P & [(A & F & C2)|(A & F & C2)]); rewrite F; cbn [fst snd]; [rewrite app_nil_r; exists D, (Some a); exact I|].
    exists D, (Some a). assert (Q : forall b, Some a <> Some b -> parent (take local s t a) b = parent s b).
    { intros b N. unfold take. destruct (local t); [|reflexivity]. cbn. apply upd_neq. congruence. }
    assert (Q2 : acc (take local s t a) = acc s /\ arbq (take local s t a) = arbq s /\ status (take local s t a) = status s /\ fifo (take local s t a) = fifo s /\ requested (take local s t a) = requested s /\ tr (take local s t a) t = TBus a).
    { unfold take. destruct (local t); cbn; rewrite upd_eq; auto 8. }
    destruct Q2 as (Q2 & Q3 & Q4 & Q5 & Q6 & Q7). apply inv_move with s D (Some a); auto.
    + unfold current. rewrite Q7, Q2, Q5, Q6. repeat (split; [first [reflexivity|assumption|out_tac; assumption]|]).
      unfold with_parent, take. destruct (local t) eqn:L; cbn; rewrite ?upd_eq; split; congruence.
    + out_tac. apply (i_nodup _ _ _ _ I).
    + rewrite Q2. auto.
    + rewrite Q4. auto.
    + intros b N M. congruence.
    + intros b E. rewrite Q2. injection E as <-. rewrite A. split; [discriminate|auto].
    + intros x [].
    + rewrite Et. discriminate.
  - destruct Cu as (a & -> & R & C1 & C3 & A & F & C2 & Fi); rewrite F; cbn [fst snd].
    assert (Ba := by_acc _ _ _ _ a I). rewrite A in Ba. destruct Ba as (_ & Na).
    exists (D ++ [a]), None. apply inv_move with s D (Some a); auto.
    + unfold current, done. cbn. rewrite upd_eq, F. repeat split; auto; out_tac; auto.
    + out_tac. apply (i_nodup _ _ _ _ I).
    + intros b J. apply in_or_app. now left.
    + intros b J. apply in_app_or in J. destruct J as [J|[<-|[]]]; [now left|]. right. split; [reflexivity|]. cbn. rewrite upd_eq. split; [now left|].
      apply (fin_ext s _ o); auto. apply incl_appl, incl_refl.
    + intros b N _. cbn. apply upd_neq. congruence.
    + discriminate.
    + intros b E. injection E as <-. cbn. rewrite upd_eq. split; [discriminate|]. left. apply in_or_app. right. now left.
    + intros x [].
    + rewrite Et. discriminate.
Qed.
Lemma inv_sel s o D c k : inv s o D c -> exists D' c', inv (fst (step s (LSel t k))) (o ++ snd (step s (LSel t k))) D' c'.
Proof.
  intros I. assert (Cu := i_cur _ _ _ _ I). unfold current in Cu. cbn [XltModel.step]. destruct (tr s t) eqn:Et; cbn [fst snd]; try (rewrite app_nil_r; exists D, c; exact I); [|destruct Cu].
  destruct Cu as (-> & R & F & C1 & C2 & C3). unfold select. destruct (nth_error (arbq s) k) as [a|] eqn:Ek; cbn [fst snd]; [|rewrite app_nil_r; exists D, None; exact I].
  assert (Ha : acc s a = AReq) by (apply (i_arbq _ _ _ _ I); eapply nth_error_In; eauto).
  assert (Ba := by_acc _ _ _ _ a I). rewrite Ha in Ba. destruct Ba as (Na & _).
  destruct (remove_nth _ _ _ Ek (i_arbnd _ _ _ _ I)) as (Q1 & Q2).
  exists D, (Some a). apply inv_move with s D None; auto.
  - unfold current. cbn. rewrite upd_eq. exists a. split; [reflexivity|]. split; [reflexivity|]. split; [out_tac; now f_equal|]. split; [out_tac; exact C3|].
    split; [apply (i_rest _ _ _ _ I a Na); discriminate|]. left. rewrite upd_eq. split; [reflexivity|]. split; [exact F|]. out_tac. exact C2.
  - out_tac. apply nodup_snoc; [apply (i_nodup _ _ _ _ I)|]. unfold chosen in C1. now rewrite C1.
  - intros b _ N. cbn. apply upd_neq. congruence.
  - intros b _ E. injection E as <-. split; [exact Ha|]. cbn. rewrite upd_eq. split; [discriminate|]. auto.
  - discriminate.
  - intros [H|H]; [now destruct H|discriminate].
  - discriminate.
  - intros x [<-|[]]. left. eauto.
  - rewrite Et. discriminate.
Qed.
Lemma inv_bus s o D c r : inv s o D c -> exists D' c', inv (fst (step s (LBus t r))) (o ++ snd (step s (LBus t r))) D' c'.
Proof.
  intros I. assert (Cu := i_cur _ _ _ _ I). unfold current in Cu. cbn [XltModel.step]. destruct (tr s t) eqn:Et; cbn [fst snd]; try (rewrite app_nil_r; exists D, c; exact I).
  destruct Cu as (-> & R & C1 & C3 & A & F & C2 & P & U). assert (Ba := by_acc _ _ _ _ a I). rewrite A in Ba. destruct Ba as (_ & Na). rewrite P.
  assert (He : forall o', In (OBus t a (with_parent a) r) (o' ++ [OBus t a (with_parent a) r])) by (intros o'; apply in_or_app; right; now left).
  exists D, (Some a). destruct r as [v|]; cbn [fst snd].
  - set (s1 := w_st s (upd (status s) a (Some v))).
    assert (G : parent (give_back local s1 t a) a = User a /\ (forall b, a <> b -> parent (give_back local s1 t a) b = parent s b) /\ acc (give_back local s1 t a) = acc s /\ arbq (give_back local s1 t a) = arbq s /\
       fifo (give_back local s1 t a) = fifo s /\ requested (give_back local s1 t a) = requested s /\ status (give_back local s1 t a) = upd (status s) a (Some v)).
    { unfold give_back. unfold with_parent in P. destruct (local t) eqn:L; [|cbn; auto 8]. subst s1. cbn. rewrite (U eq_refl). cbn. rewrite upd_eq.
      split; [reflexivity|]. split; [intros b N; apply upd_neq; congruence|auto 6]. }
    destruct G as (G1 & G2 & G3 & G4 & G5 & G6 & G7). unfold ask. rewrite G6, R. apply inv_move with s D (Some a); auto.
    + unfold current. cbn. rewrite upd_eq. exists a. rewrite G3, G5. repeat (split; [first [reflexivity|assumption|out_tac; rewrite ?C3; solve [auto|f_equal; assumption]]|]).
      exists v. cbn. rewrite G7, upd_eq. split; [reflexivity|auto].
    + out_tac. apply (i_nodup _ _ _ _ I).
    + intros b N _. cbn. now rewrite G3.
    + intros b N _. cbn. apply G2. congruence.
    + intros b N _. cbn. rewrite G7. apply upd_neq. congruence.
    + intros b N M. congruence.
    + intros b E. injection E as <-. cbn. rewrite G3, A. split; [discriminate|auto].
    + intros x [<-|[]]. right. right. exists a, (Some v). split; [reflexivity|discriminate].
    + rewrite Et. discriminate.
  - apply inv_move with s D (Some a); auto.
    + unfold current. cbn. rewrite upd_eq. exists a. repeat (split; [first [reflexivity|assumption|out_tac; rewrite ?C3; solve [auto|f_equal; assumption]]|]). auto.
    + out_tac. apply (i_nodup _ _ _ _ I).
    + intros b N M. congruence.
    + intros b E. injection E as <-. cbn. rewrite A. split; [discriminate|auto].
    + intros x [<-|[]]. right. right. exists a, None. split; [reflexivity|]. intros _. cbn. apply upd_eq.
    + rewrite Et. discriminate.
Qed.
Lemma inv_step s o D c l : by_one t l -> inv s o D c -> exists D' c', inv (fst (step s l)) (o ++ snd (step s l)) D' c'.
Proof.
  intros B I. destruct l as [a|a|a|u|u k|u r]; cbn in B; try subst u.
  - cbn. destruct (acc s a) eqn:E; cbn; rewrite app_nil_r; exists D, c; auto. now apply inv_req.
  - cbn. destruct (acc s a) eqn:E; cbn; try (rewrite app_nil_r; exists D, c; exact I). destruct (inv_send _ _ _ _ _ I E) as (F & J). rewrite F. cbn. eauto.
  - cbn. destruct (acc s a) eqn:E; cbn; try (rewrite app_nil_r; exists D, c; exact I). exists D, c. now apply inv_ret.
  - eapply inv_run; eauto.
  - eapply inv_sel; eauto.
  - eapply inv_bus; eauto.
Qed.
Lemma inv0 : inv xs0 [] [] None.
Proof.
  split; cbn; [unfold current; cbn; auto 8|constructor|tauto|auto| |constructor|auto|tauto|tauto|constructor].
  intros a. split; [intros []|discriminate].
Qed.
Lemma inv_run_all ls : Forall (by_one t) ls -> exists D c, inv (fst (run ls)) (snd (run ls)) D c.
Proof.
  intros H. apply (run_machine_inv_ok step (by_one t) (fun s o => exists D c, inv s o D c)) with (tr := []) (s := xs0); auto.
  - intros s o l B (D & c & I). eapply inv_step; eauto.
  - exists [], None. apply inv0.
Qed.

(** ** C205 *)
(** With one translation sequence, every access is translated at most once, in the order of
    arbitration, and returns at most once, only after its translation, with the status of
    that and with its own parent again. *)
Theorem C205_once ls : Forall (by_one t) ls -> let o := snd (run ls) in
  (exists k, translated o = firstn k (chosen o) /\ length (chosen o) <= S k) /\ NoDup (chosen o) /\
  (forall u a p r, In (OBus u a p r) o -> u = t /\ p = if local t then Xl t else User a) /\
  NoDup (returned o) /\
  (forall a st p, In (ORet a st p) o -> p = User a /\ exists r, st = Some r /\ In (OBus t a (if local t then Xl t else User a) (Some r)) o) /\
  (forall a, ~ In (OFatal a) o).
Proof.
  intros H. cbn zeta. destruct (inv_run_all ls H) as (D & c & I). set (s := fst (run ls)) in *. set (o := snd (run ls)) in *. clearbody s o.
  split.
  { assert (Cu := i_cur _ _ _ _ I). unfold current in Cu.
    assert (G : forall a, firstn (length D) (D ++ [a]) = D /\ firstn (S (length D)) (D ++ [a]) = D ++ [a] /\ length (D ++ [a]) = S (length D)).
    { intros a. split; [rewrite firstn_app, Nat.sub_diag, firstn_all; cbn; apply app_nil_r|]. split; [apply firstn_all2|]; rewrite app_length; cbn; lia. }
    destruct (tr s t).
    - exists (length D). destruct Cu as (_ & _ & _ & -> & _ & ->). now rewrite firstn_all; auto.
    - exists (length D). destruct Cu as (_ & _ & _ & -> & _ & ->). now rewrite firstn_all; auto.
    - exists (length D). destruct Cu as (a & _ & _ & -> & -> & _). destruct (G a) as (-> & _ & ->). auto.
    - exists (length D). destruct Cu as (_ & _ & -> & -> & _). destruct (G a) as (-> & _ & ->). auto.
    - destruct Cu.
    - exists (S (length D)). destruct Cu as (a & _ & _ & -> & -> & _). destruct (G a) as (_ & -> & ->). auto.
    - exists (S (length D)). destruct Cu as (a & _ & _ & -> & -> & _). destruct (G a) as (_ & -> & ->). auto. }
  split; [apply (i_nodup _ _ _ _ I)|]. split; [|split; [apply (i_retnd _ _ _ _ I)|split; [|apply (i_fatal _ _ _ _ I)]]].
  - intros u a p r J. destruct (i_bus _ _ _ _ I _ _ _ _ J) as (-> & -> & _). auto.
  - intros a st p J. destruct (i_ret _ _ _ _ I _ _ _ J) as (E & -> & <-). split; [reflexivity|].
    assert (B := by_acc _ _ _ _ a I). rewrite E in B. destruct B as (B & _). destruct (i_done _ _ _ _ I a B) as (_ & (_ & r & S1 & S2)). eauto.
Qed.
Lemma asked_acc ls a : asked ls a -> acc (fst (run ls)) a <> ANew.
Proof.
  assert (M : forall l s, acc s a <> ANew -> acc (fst (step s l)) a <> ANew).
  { intros l s N. destruct l as [b|b|b|u|u k|u r]; cbn.
    - destruct (acc s b) eqn:E; cbn; auto. unfold upd. destruct (Nat.eqb a b); [discriminate|auto].
    - destruct (acc s b) eqn:E; cbn; auto. destruct (fifo s); cbn; unfold upd; (destruct (Nat.eqb a b); [discriminate|auto]).
    - destruct (acc s b) eqn:E; cbn; auto. unfold upd. destruct (Nat.eqb a b); [discriminate|auto].
    - destruct (tr s u); cbn; auto.
      + unfold ask. destruct (requested s); exact N.
      + destruct (fifo s) as [|b l]; cbn; auto. unfold take. destruct (local u); exact N.
      + destruct (fifo s) as [|b l]; cbn; auto. unfold upd. destruct (Nat.eqb a b); [discriminate|auto].
    - assert (Z : forall w, acc (fst (select s u k w)) a <> ANew).
      { intros w. unfold select. destruct (nth_error (arbq s) k) as [b|]; cbn; auto. unfold upd. destruct (Nat.eqb a b); [discriminate|auto]. }
      destruct (tr s u); cbn; auto.
    - destruct (tr s u) as [| | |b| | |]; cbn; auto. destruct r; cbn; auto. unfold ask, give_back. destruct (local u); cbn; [destruct (upstream s u); cbn|]; destruct (requested s); exact N. }
  unfold run, XltModel.run, asked. induction ls as [|l ls IH] using rev_ind; [intros []|]. intros H. rewrite run_machine_app. cbn.
  destruct (step (fst (run_machine step xs0 ls)) l) as [s1 o1] eqn:E. cbn. apply in_app_or in H. replace s1 with (fst (step (fst (run_machine step xs0 ls)) l)) by now rewrite E.
  destruct H as [H|[->|[]]]; [auto|]. cbn. destruct (acc (fst (run_machine step xs0 ls)) a) eqn:F; cbn; rewrite ?upd_eq, ?F; discriminate.
Qed.
Lemma acc_asked ls b : Forall (by_one t) ls -> acc (fst (run ls)) b <> ANew -> asked ls b.
Proof.
  unfold asked. induction ls as [|l ls IH] using rev_ind; intros F H; [now destruct H|]. apply Forall_app in F. destruct F as (F & Fl). inversion Fl as [|? ? B _]; subst.
  destruct (inv_run_all ls F) as (D & c & I). assert (E : fst (run (ls ++ [l])) = fst (step (fst (run ls)) l)).
  { unfold run, XltModel.run. rewrite run_machine_app. cbn. now destruct (step (fst (run_machine step xs0 ls)) l). }
  rewrite E in H. clear E. apply in_or_app. set (s := fst (run ls)) in *. set (o := snd (run ls)) in *. clearbody s o.
  assert (W : acc s b <> ANew \/ l = LReq b); [|destruct W as [W|W]; [left; auto|right; now left]].
  assert (Cu := i_cur _ _ _ _ I). unfold current in Cu.
  assert (U : forall x v, (acc s x = ANew -> x = b -> False) -> upd (acc s) x v b <> ANew -> acc s b <> ANew).
  { intros x v N X Y. unfold upd in X. destruct (Nat.eqb_spec b x) as [<-|]; [now apply N|congruence]. }
  destruct l as [d|d|d|u|u k|u r]; cbn in B; try subst u; cbn in H.
  - destruct (Nat.eq_dec d b) as [->|Nd]; [now right|left]. destruct (acc s d); auto. cbn in H. now rewrite upd_neq in H by congruence.
  - left. destruct (acc s d) eqn:G; auto. destruct (fifo s); cbn in H; (eapply U; [|exact H]); congruence.
  - left. destruct (acc s d) eqn:G; auto. cbn in H. eapply U; [|exact H]; congruence.
  - left. destruct (tr s t) eqn:Et; auto.
    + unfold ask in H. destruct (requested s); exact H.
    + destruct (fifo s) as [|d l]; auto. unfold take in H. destruct (local t); exact H.
    + destruct Cu as (a & _ & _ & _ & _ & A & G & _). rewrite G in H. cbn in H. eapply U; [|exact H]; congruence.
  - left. assert (Z : forall w, acc (fst (select s t k w)) b <> ANew -> acc s b <> ANew).
    { intros w. unfold select. destruct (nth_error (arbq s) k) as [d|] eqn:G; cbn; auto. apply U. apply nth_error_In in G. apply (i_arbq _ _ _ _ I) in G. congruence. }
    destruct (tr s t); cbn in H; auto; eapply Z; eauto.
  - left. destruct (tr s t); auto. destruct r; cbn in H; auto. revert H. unfold ask, give_back.
    destruct (local t); cbn; [destruct (upstream s t); cbn|]; destruct (requested s); auto.
Qed.
Lemma returned_acc ls a : acc (fst (run ls)) a = AReturned -> In a (returned (snd (run ls))).
Proof.
  unfold run, XltModel.run. assert (R := run_machine_inv step (fun s o => acc s a = AReturned -> In a (returned o))).
  assert (M : forall s o l, (acc s a = AReturned -> In a (returned o)) -> acc (fst (step s l)) a = AReturned -> In a (returned (o ++ snd (step s l)))).
  { intros s o l IH E. assert (W : acc s a = AReturned \/ In a (returned (snd (step s l)))).
    { destruct l as [b|b|b|u|u k|u r]; cbn in *.
      - destruct (acc s b) eqn:F; cbn in *; auto. unfold upd in E. destruct (Nat.eqb a b); [discriminate|auto].
      - destruct (acc s b) eqn:F; cbn in *; auto. destruct (fifo s); cbn in *; unfold upd in E; (destruct (Nat.eqb a b); [discriminate|auto]).
      - destruct (acc s b) eqn:F; cbn in *; auto. unfold upd in E. destruct (Nat.eqb_spec a b) as [->|]; auto.
      - destruct (tr s u); cbn in *; auto.
        + unfold ask in E. destruct (requested s); auto.
        + destruct (fifo s) as [|b l]; cbn in *; auto. unfold take in E. destruct (local u); auto.
        + destruct (fifo s) as [|b l]; cbn in *; auto. unfold upd in E. destruct (Nat.eqb a b); [discriminate|auto].
      - assert (Z : forall w, acc (fst (select s u k w)) a = AReturned -> acc s a = AReturned).
        { intros w. unfold select. destruct (nth_error (arbq s) k) as [b|]; cbn; auto. unfold upd. destruct (Nat.eqb a b); [discriminate|auto]. }
        left. destruct (tr s u); cbn in *; auto; eapply Z; eauto.
      - destruct (tr s u) as [| | |b| | |]; cbn in *; auto. destruct r; cbn in *; auto. left. revert E. unfold ask, give_back.
        destruct (local u); cbn; [destruct (upstream s u); cbn|]; destruct (requested s); auto. }
    unfold returned in *. rewrite proj_app. apply in_or_app. destruct W; auto. }
  intros E. apply (R M ls xs0 [] (fun X => match eq_ind ANew (fun x => match x with ANew => True | _ => False end) I _ X with end) E).
Qed.
(** The layers never wait for each other: as long as no transfer raised, when nothing can go on
    any more every access that was made has returned. *)
Theorem C205_no_deadlock ls : Forall (by_one t) ls ->
  (forall u a p, ~ In (OBus u a p None) (snd (run ls))) ->
  (forall l, by_one t l -> (forall a, l <> LReq a) -> step (fst (run ls)) l = (fst (run ls), [])) ->
  forall a, asked ls a -> In a (returned (snd (run ls))).
Proof.
  intros H Nb Q a A. assert (N := asked_acc ls a A). clear A. apply returned_acc.
  destruct (inv_run_all ls H) as (D & c & I). set (s := fst (run ls)) in *. set (o := snd (run ls)) in *. clearbody s o.
  assert (Qs : forall b, acc s b <> AGranted).
  { intros b E. specialize (Q (LSend b) Logic.I (fun x X => ltac:(discriminate X))). cbn in Q. rewrite E in Q. destruct (fifo s); apply (f_equal snd) in Q; discriminate Q. }
  assert (Qr : step s (LRun t) = (s, [])) by (apply Q; [reflexivity|discriminate]).
  assert (Qk : forall k, step s (LSel t k) = (s, [])) by (intros k; apply Q; [reflexivity|discriminate]).
  assert (Qb : step s (LBus t (Some 0)) = (s, [])) by (apply Q; [reflexivity|discriminate]).
  assert (Busy : tr s t = TSel /\ c = None).
  { assert (Cu := i_cur _ _ _ _ I). unfold current in Cu. cbn [XltModel.step] in Qr, Qb. apply (f_equal (fun x => tr (fst x) t)) in Qr.
    destruct (tr s t) eqn:Et.
    - exfalso. destruct Cu as (_ & R & _). unfold ask in Qr. rewrite R in Qr. cbn in Qr. rewrite upd_eq in Qr. congruence.
    - split; [reflexivity|]. apply Cu.
    - exfalso. destruct Cu as (b & _ & _ & _ & _ & _ & [(X & _)|(_ & X & _)]); [now apply Qs in X|]. rewrite X in Qr. unfold take in Qr.
      destruct (local t); cbn in Qr; rewrite upd_eq in Qr; congruence.
    - apply (f_equal snd) in Qb. discriminate Qb.
    - destruct Cu.
    - exfalso. destruct Cu as (b & _ & _ & _ & _ & _ & X & _). rewrite X in Qr. cbn in Qr. rewrite upd_eq in Qr. congruence.
    - destruct Cu as (b & _ & _ & _ & _ & _ & _ & _ & X). now apply Nb in X. }
  destruct Busy as (Et & ->). destruct (acc s a) eqn:E; try reflexivity.
  - now destruct N.
  - exfalso. apply (i_arbq _ _ _ _ I) in E. apply In_nth_error in E. destruct E as (k & E). specialize (Qk k). cbn in Qk. rewrite Et in Qk.
    unfold select in Qk. rewrite E in Qk. apply (f_equal snd) in Qk. discriminate Qk.
  - now apply Qs in E.
  - assert (B := by_acc _ _ _ _ a I). rewrite E in B. destruct B as (B & _). discriminate B.
  - exfalso. specialize (Q (LRet a) Logic.I (fun x X => ltac:(discriminate X))). cbn in Q. rewrite E in Q. apply (f_equal snd) in Q. discriminate Q.
  - assert (B := by_acc _ _ _ _ a I). rewrite E in B. destruct B.
Qed.
(** ** C206: a transfer that raises stops the layer for good. *)
Theorem C206_stops ls a p : Forall (by_one t) ls -> In (OBus t a p None) (snd (run ls)) ->
  forall ls', Forall (by_one t) ls' -> let o := snd (run (ls ++ ls')) in
  ~ In a (returned o) /\ translated o = translated (snd (run ls)) /\ chosen o = chosen (snd (run ls)) /\
  (forall b, ~ asked ls b -> ~ In b (returned o)).
Proof.
  intros H J ls' H'. cbn zeta. destruct (inv_run_all ls H) as (D & c & I).
  assert (Dead : tr (fst (run ls)) t = TDead).
  { destruct (i_bus _ _ _ _ I _ _ _ _ J) as (_ & _ & K). destruct (tr (fst (run ls)) t); auto; exfalso; apply K; auto; discriminate. }
  assert (St : forall ls', Forall (by_one t) ls' -> let r := run_machine step (fst (run ls)) ls' in tr (fst r) t = TDead /\ translated (snd r) = [] /\ chosen (snd r) = []).
  { clear ls' H'. intros ls' H'. assert (X := run_machine_inv_ok step (by_one t) (fun s o => tr s t = TDead /\ translated o = [] /\ chosen o = [])).
    cbn zeta. apply (X) with (tr := []); auto. clear. intros s o l B (E & T & C). unfold translated, chosen in *. rewrite !proj_app, T, C. cbn [app].
    destruct l as [b|b|b|u|u k|u r]; cbn in B; try subst u; cbn.
    - destruct (acc s b); cbn; auto.
    - destruct (acc s b); cbn; auto. destruct (fifo s); cbn; auto.
    - destruct (acc s b); cbn; auto.
    - rewrite E. cbn. auto.
    - rewrite E. cbn. auto.
    - rewrite E. cbn. auto. }
  destruct (St ls' H') as (_ & S2 & S3).
  assert (Eo : snd (run (ls ++ ls')) = snd (run ls) ++ snd (run_machine step (fst (run ls)) ls')) by (unfold run, XltModel.run; now rewrite run_machine_app).
  assert (Tr : translated (snd (run (ls ++ ls'))) = translated (snd (run ls))) by (rewrite Eo; unfold translated in *; rewrite proj_app, S2; apply app_nil_r).
  assert (Ch : chosen (snd (run (ls ++ ls'))) = chosen (snd (run ls))) by (rewrite Eo; unfold chosen in *; rewrite proj_app, S3; apply app_nil_r).
  destruct (inv_run_all (ls ++ ls')) as (D' & c' & I'); [now apply Forall_app|].
  assert (Fin : forall b, In b (returned (snd (run (ls ++ ls')))) -> In b D').
  { intros b R. apply in_ret in R. destruct R as (st & q & R). destruct (i_ret _ _ _ _ I' _ _ _ R) as (E & _). assert (B := by_acc _ _ _ _ b I'). rewrite E in B. apply B. }
  (* the access in the transfer is the one that died *)
  assert (Dd : tr (fst (run (ls ++ ls'))) t = TDead).
  { unfold run, XltModel.run. rewrite run_machine_app. cbn [fst]. destruct (St ls' H') as (X & _). exact X. }
  assert (Cu := i_cur _ _ _ _ I'). unfold current in Cu. rewrite Dd in Cu. destruct Cu as (x & -> & _ & C1 & T1 & A1 & _).
  assert (Cu := i_cur _ _ _ _ I). unfold current in Cu. rewrite Dead in Cu. destruct Cu as (y & -> & _ & C2 & T2 & A2 & _).
  rewrite Ch, C2 in C1. apply app_inj_tail in C1. destruct C1 as (<- & <-).
  split; [|split; [exact Tr|split; [exact Ch|]]].
  - intros R. apply Fin in R. assert (Na : NoDup (translated (snd (run ls)))) by (rewrite T2, <- C2; apply (i_nodup _ _ _ _ I)).
    destruct (i_done _ _ _ _ I a R) as (_ & (_ & r & _ & O)).
    assert (U : forall (l : list out) p1 p2 r1 r2, NoDup (translated l) -> In (OBus t a p1 r1) l -> In (OBus t a p2 r2) l -> r1 = r2).
    { clear. induction l as [|e l IH]; intros p1 p2 r1 r2 N I1 I2; [destruct I1|].
      assert (Z : forall q r, In (OBus t a q r) l -> In a (translated l)) by (intros q r I; unfold translated; apply in_flat_map; eexists; split; [exact I|now left]).
      destruct I1 as [->|I1], I2 as [E|I2].
      - now injection E.
      - exfalso. unfold translated in N. cbn in N. apply NoDup_cons_iff in N. now destruct N as (N & _), (N (Z _ _ I2)).
      - subst e. exfalso. unfold translated in N. cbn in N. apply NoDup_cons_iff in N. now destruct N as (N & _), (N (Z _ _ I1)).
      - eapply IH; eauto. unfold translated in N. cbn [flat_map] in N. destruct e; cbn in N; auto. now apply NoDup_cons_iff in N. }
    specialize (U _ _ _ _ _ Na O J). discriminate U.
  - intros b Nb R. apply Fin in R. destruct (i_done _ _ _ _ I b R) as (W & _). apply Nb.
    apply acc_asked; [exact H|]. destruct W as [-> | ->]; discriminate.
Qed.
End P.

(** ** Examples *)
(** Access 1 is chosen before 0, with the translation sequence as parent. *)
Definition ex_one := [LReq 0; LRun 5; LReq 1; LSel 5 1; LSend 1; LRun 5; LBus 5 (Some 7); LRun 5; LRun 5; LSel 5 0; LRet 1; LSend 0; LRun 5; LBus 5 (Some 8); LRun 5; LRet 0; LRun 5].
Example C205_example : Forall (by_one 5) ex_one /\
  snd (run (fun _ => true) ex_one) =
    [OGrant 1; OSent 1; OBus 5 1 (Xl 5) (Some 7); OGrant 0; ORet 1 (Some 7) (User 1); OSent 0; OBus 5 0 (Xl 5) (Some 8); ORet 0 (Some 8) (User 0)].
Proof. split; [unfold ex_one; repeat (constructor; [cbn; trivial|]); constructor|vm_compute; reflexivity]. Qed.
(** Nothing goes on at the end of it. *)
Lemma quiet s : (forall a, acc s a = AReturned \/ acc s a = ANew) -> tr s 5 = TSel -> arbq s = [] ->
  forall l, by_one 5 l -> (forall a, l <> LReq a) -> step (fun _ => true) s l = (s, []).
Proof.
  intros A T Q [a|a|a|u|u k|u r] B N; cbn in B; try subst u; cbn.
  - now destruct (N a).
  - destruct (A a) as [-> | ->]; reflexivity.
  - destruct (A a) as [-> | ->]; reflexivity.
  - now rewrite T.
  - rewrite T. unfold select. rewrite Q. destruct k; reflexivity.
  - now rewrite T.
Qed.
Example C205_quiet : forall l, by_one 5 l -> (forall a, l <> LReq a) ->
  step (fun _ => true) (fst (run (fun _ => true) ex_one)) l = (fst (run (fun _ => true) ex_one), []).
Proof.
  apply quiet.
  - intros [|[|a]]; [left; vm_compute; reflexivity|left; vm_compute; reflexivity|right; vm_compute; reflexivity].
  - vm_compute. reflexivity.
  - vm_compute. reflexivity.
Qed.
(** Two translation sequences on one sequencer: access 0 is done twice on the bus, access 1
    returns as it began, never having been on the bus, and nothing is reported. *)
Definition ex_two := [LReq 0; LReq 1; LRun 0; LSel 0 0; LSend 0; LRun 0; LRun 1; LRun 1; LBus 0 (Some 1); LBus 1 (Some 2);
  LRun 0; LRun 0; LSel 0 0; LSend 1; LRun 1; LRet 0; LRet 1].
Theorem C205_two_translators : let o := snd (run (fun _ => true) ex_two) in
  translated o = [0; 0] /\ returned o = [0; 1] /\ In (ORet 1 None (User 1)) o /\ In (ORet 0 (Some 2) (Xl 0)) o /\ forall a, ~ In (OFatal a) o.
Proof. vm_compute. repeat split; auto 20. intros a H. repeat (destruct H as [H|H]; [discriminate|]). exact H. Qed.
(** or the second access is refused with a fatal error *)
Theorem C205_two_fatal : In (OFatal 1) (snd (run (fun _ => true) [LRun 0; LRun 1; LReq 0; LReq 1; LSel 0 0; LSel 1 0; LSend 0; LSend 1])).
Proof. vm_compute. auto. Qed.
Example C206_example : let o := snd (run (fun _ => true) ([LReq 0; LRun 5; LSel 5 0; LSend 0; LRun 5; LBus 5 None] ++ [LReq 1; LRun 5; LSel 5 0; LRet 0])) in
  o = [OGrant 0; OSent 0; OBus 5 0 (Xl 5) None].
Proof. vm_compute. reflexivity. Qed.
Print Assumptions C205_once.
Print Assumptions C205_no_deadlock.
Print Assumptions C205_two_translators.
Print Assumptions C205_two_fatal.
Print Assumptions C206_stops.
