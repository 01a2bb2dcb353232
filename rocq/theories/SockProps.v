From Coq Require Import ZArith List Bool Arith Lia.
From Verif Require Import PortModel PortProps SockModel SockSpec.
Import ListNotations.

Lemma fw_div s : Nat.div2 (fw s) = s.
Proof. unfold fw. apply Nat.div2_double. Qed.
Lemma bw_div s : Nat.div2 (bw s) = s.
Proof. unfold bw. rewrite Nat.add_1_r. apply Nat.div2_succ_double. Qed.
Lemma fw_even s : Nat.even (fw s) = true.
Proof. unfold fw. rewrite Nat.even_mul. reflexivity. Qed.
Lemma bw_odd s : Nat.even (bw s) = false.
Proof. unfold bw. rewrite Nat.even_add, Nat.even_mul. reflexivity. Qed.
Lemma fw_bw a b : fw a <> bw b.
Proof. unfold fw, bw. lia. Qed.
Lemma fw_inj a b : fw a = fw b -> a = b.
Proof. unfold fw. lia. Qed.
Lemma bw_inj a b : bw a = bw b -> a = b.
Proof. unfold bw. lia. Qed.
Lemma even_fw p : Nat.even p = true -> p = fw (Nat.div2 p).
Proof. intros H. apply Nat.even_spec in H. destruct H as [k ->]. rewrite Nat.div2_double. reflexivity. Qed.
Lemma odd_bw p : Nat.even p = false -> p = bw (Nat.div2 p).
Proof.
  intros H. assert (O : Nat.odd p = true) by (rewrite <- Nat.negb_even, H; reflexivity). apply Nat.odd_spec in O. destruct O as [k ->].
  rewrite Nat.add_1_r, Nat.div2_succ_double. unfold bw. lia.
Qed.

Section Proofs.
Context (sk : nat -> skind) (nm : nat -> nat) (nm_inj : forall p q, nm p = nm q -> p = q).
Notation kd := (kd sk). Notation mask := (mask sk).
(** A direct connection that carries a backward path. *)
Definition backed (log : list (nat * nat)) (a b : nat) : Prop :=
  In (a, b) log /\ sk a = NbInit /\ (sk b = NbPassInit \/ sk b = NbPassTarget \/ sk b = NbTarget).

Lemma in_log log x y : In (x, y) (port_log sk log) <->
  (exists a b, In (a, b) log /\ x = fw a /\ y = fw b) \/ (exists a b, backed log a b /\ x = bw b /\ y = bw a).
Proof.
  unfold port_log, backed. rewrite in_flat_map. split.
  - intros ((a & b) & I & H). cbn [fst snd] in H. unfold sock_connect in H. destruct H as [H|H].
    + injection H as <- <-. left. eauto.
    + right. exists a, b. destruct (sk a) eqn:Ea; try now destruct H. destruct (sk b) eqn:Eb; try now destruct H.
      all: destruct H as [H|[]]; injection H as <- <-; repeat split; auto.
  - intros [(a & b & I & -> & ->)|(a & b & (I & Ea & Eb) & -> & ->)]; exists (a, b); (split; [exact I|]); cbn [fst snd]; unfold sock_connect.
    + now left.
    + right. rewrite Ea. destruct Eb as [->|[->| ->]]; now left.
Qed.
Lemma linked_fw log a y : linked kd mask (port_log sk log) (fw a) y <-> exists b, y = fw b /\ joined sk log a b.
Proof.
  unfold linked, legal. rewrite in_log. split.
  - intros ([(a' & b & I & E & ->)|(c & d & _ & E & _)] & L); [|now apply fw_bw in E]. apply fw_inj in E. subst a'.
    exists b. split; [reflexivity|]. unfold joined. revert L. unfold SockModel.kd, SockModel.mask. rewrite !fw_even, !fw_div.
    unfold target, pass_target. destruct (sk a) eqn:Ea, (sk b) eqn:Eb; cbn; intros (L1 & L2 & L3 & L4).
    all: repeat split; try exact I; try (intros ->; now apply L1); try reflexivity; try (intros [X|X]; discriminate X); auto.
    all: try (exfalso; first [discriminate L2 | now apply L3 | now apply L4]).
  - intros (b & -> & (I & N & B & T & P)). split; [left; eauto|]. unfold SockModel.kd, SockModel.mask. rewrite !fw_even, !fw_div.
    revert B T P. unfold target, pass_target. destruct (sk a) eqn:Ea, (sk b) eqn:Eb; cbn; intros B T P; try discriminate B.
    all: try (exfalso; apply T; auto; fail).
    all: try (exfalso; destruct (P (or_introl eq_refl)) as [[X|X]|[X|X]]; discriminate X).
    all: try (exfalso; destruct (P (or_intror eq_refl)) as [[X|X]|[X|X]]; discriminate X).
    all: repeat split; try reflexivity; try (intros X; apply fw_inj in X; congruence); try discriminate; try (intros (X & Y); discriminate).
Qed.
Lemma linked_bw log b y : linked kd mask (port_log sk log) (bw b) y <-> exists a, y = bw a /\ backed log a b.
Proof.
  unfold linked, legal. rewrite in_log. split.
  - intros ([(a' & c & _ & E & _)|(a & d & B & E & ->)] & _); [symmetry in E; now apply fw_bw in E|]. apply bw_inj in E. subst d. eauto.
  - intros (a & -> & B). split; [right; eauto|]. destruct B as (_ & Ea & Eb).
    unfold SockModel.kd, SockModel.mask. rewrite !bw_odd, !bw_div, Ea.
    repeat split; try (intros X; apply bw_inj in X; subst; rewrite Ea in Eb; destruct Eb as [X|[X|X]]; discriminate X).
    all: destruct Eb as [->|[->| ->]]; try discriminate; intros (X & Y); discriminate.
Qed.
Lemma reach_fw log a y : reach kd mask (port_log sk log) (fw a) y <-> exists b, y = fw b /\ leads sk log a b.
Proof.
  split.
  - intros H. remember (fw a) as x eqn:E. revert a E. induction H as [p|p q r L R IH]; intros a ->; [exists a; split; [reflexivity|constructor]|].
    apply linked_fw in L. destruct L as (b & -> & J). destruct (IH b eq_refl) as (c & -> & Lc). exists c. split; [reflexivity|]. econstructor; eauto.
  - intros (b & -> & L). induction L as [a|a b c J L IH]; [constructor|]. apply reach_step with (fw b); [apply linked_fw; eauto|exact IH].
Qed.
Lemma reach_bw log b y : reach kd mask (port_log sk log) (bw b) y <-> y = bw b \/ exists a, y = bw a /\ backed log a b.
Proof.
  split.
  - intros H. inversion H as [p|p q r L R]; subst; [now left|]. apply linked_bw in L. destruct L as (a & -> & B). right.
    inversion R as [p|p q r L2 R2]; subst; [eauto|]. apply linked_bw in L2. destruct L2 as (c & -> & (_ & _ & Ea)). destruct B as (_ & E & _).
    rewrite E in Ea. destruct Ea as [X|[X|X]]; discriminate X.
  - intros [->|(a & -> & B)]; [constructor|]. eapply reach_step; [apply linked_bw; eauto|constructor].
Qed.
Lemma port_acyclic log : no_loop sk log -> acyclic kd mask (port_log sk log).
Proof.
  intros [rank Hr]. exists (fun p => if Nat.even p then rank (Nat.div2 p) else match sk (Nat.div2 p) with NbInit => 0 | _ => 1 end).
  intros p q L. destruct (Nat.even p) eqn:E.
  - rewrite (even_fw p E) in L. apply linked_fw in L. destruct L as (b & -> & J). rewrite fw_even, fw_div. auto.
  - rewrite (odd_bw p E) in L. apply linked_bw in L. destruct L as (a & -> & (_ & Ea & Eb)). rewrite bw_odd, bw_div, Ea.
    destruct Eb as [->|[->| ->]]; lia.
Qed.
(** What elaboration leaves at a port: all the imps reached, the first of them in m_if. *)
Lemma at_port log ord st p : no_loop sk log -> sockets sk nm log ord st -> In p ord ->
  exists imps, NoDup imps /\ (forall i, In i imps <-> reach kd mask (port_log sk log) p i /\ kd i = KImp) /\ m_if st p = hd_error imps /\
    count_occ report_dec (reported st) (p, TooFew) = (if Nat.ltb (length imps) 1 then 1 else 0) /\
    count_occ report_dec (reported st) (p, TooMany) = (if Nat.ltb 1 (length imps) then 1 else 0).
Proof.
  intros A He Hp. apply port_acyclic in A. destruct (C104_count kd nm mask one one nm_inj _ _ _ _ A He Hp) as (imps & N & Hi & F & M).
  destruct A as [rank Hr]. destruct (elaborated_ok kd nm mask one one nm_inj _ _ _ rank Hr He p Hp) as [Hres Hok].
  unfold ok_at in Hok. rewrite Hres in Hok. destruct Hok as (_ & Hm & _).
  assert (Ho : forall i, In i (order kd mask (port_log sk log) rank p) <-> reach kd mask (port_log sk log) p i /\ kd i = KImp) by (intros i; now apply (order_reach kd nm mask one one nm_inj)).
  assert (No : NoDup (order kd mask (port_log sk log) rank p)) by (now apply (order_nodup kd nm mask one one nm_inj)).
  exists (order kd mask (port_log sk log) rank p). split; [exact No|]. split; [exact Ho|].
  assert (L : length (order kd mask (port_log sk log) rank p) = length imps).
  { apply Nat.le_antisymm; apply NoDup_incl_length; auto; intros i I; [apply Hi, Ho, I|apply Ho, Hi, I]. }
  rewrite L. split; [exact Hm|]. rewrite F, M. unfold one. split.
  - destruct (Z.ltb_spec (Z.of_nat (length imps)) 1), (Nat.ltb_spec (length imps) 1); lia.
  - change (1 =? -1)%Z with false. cbv iota. destruct (Z.ltb_spec 1 (Z.of_nat (length imps))), (Nat.ltb_spec 1 (length imps)); lia.
Qed.
Lemma kd_fw_imp t : kd (fw t) = KImp <-> target (sk t).
Proof. unfold SockModel.kd, target. rewrite fw_even, fw_div. destruct (sk t); split; intros H; auto; try discriminate H; destruct H as [H|H]; discriminate H. Qed.
Lemma kd_bw_imp t : kd (bw t) = KImp <-> sk t = NbInit.
Proof. unfold SockModel.kd. rewrite bw_odd, bw_div. destruct (sk t); split; intros H; auto; discriminate H. Qed.
Lemma leads_target log t u : target (sk t) -> leads sk log t u -> u = t.
Proof. intros T L. inversion L as [|a b c J L2]; subst; [reflexivity|]. destruct J as (_ & _ & _ & J & _). now destruct J. Qed.
Lemma map_div_nodup l : (forall x, In x l -> exists t, x = fw t) \/ (forall x, In x l -> exists t, x = bw t) -> NoDup l -> NoDup (map Nat.div2 l).
Proof.
  intros H N. induction N as [|x l X N IH]; [constructor|]. cbn [map]. constructor.
  - intros I. apply in_map_iff in I. destruct I as (y & E & I). apply X. destruct H as [H|H].
    + destruct (H x (or_introl eq_refl)) as (t & ->), (H y (or_intror I)) as (u & ->). rewrite !fw_div in E. now subst.
    + destruct (H x (or_introl eq_refl)) as (t & ->), (H y (or_intror I)) as (u & ->). rewrite !bw_div in E. now subst.
  - apply IH. destruct H as [H|H]; [left|right]; intros y Y; apply H; now right.
Qed.

(** ** C202: the forward path *)
Theorem C202_terminates log ord : no_loop sk log -> exists st, sockets sk nm log ord st.
Proof. intros A. apply C63_terminates; auto. now apply port_acyclic. Qed.
(** A transport call at any socket goes to a target it leads to, whatever lies between; there
    is none exactly if it leads to no target; more or fewer than one are reported. *)
Theorem C202_forward log ord st a : no_loop sk log -> sockets sk nm log ord st -> In (fw a) ord ->
  exists ts, NoDup ts /\ (forall t, In t ts <-> leads sk log a t /\ target (sk t)) /\
    (ts = [] -> (if blocking (sk a) then b_transport sk st a true else nb_transport_fw sk st a true) = NotBound) /\
    (ts <> [] -> exists t, In t ts /\ (if blocking (sk a) then b_transport sk st a true else nb_transport_fw sk st a true) = Reaches t) /\
    count_occ report_dec (reported st) (fw a, TooFew) = (if Nat.ltb (length ts) 1 then 1 else 0) /\
    count_occ report_dec (reported st) (fw a, TooMany) = (if Nat.ltb 1 (length ts) then 1 else 0).
Proof.
  intros A He Hp. destruct (at_port _ _ _ _ A He Hp) as (imps & N & Hi & M & F & G).
  assert (Fw : forall x, In x imps -> exists t, x = fw t).
  { intros x I. apply Hi in I. destruct I as (R & _). apply reach_fw in R. destruct R as (t & -> & _). eauto. }
  assert (Ht : forall t, In t (map Nat.div2 imps) <-> leads sk log a t /\ target (sk t)).
  { intros t. split.
    - intros I. apply in_map_iff in I. destruct I as (x & <- & I). destruct (Fw x I) as (t & ->). rewrite fw_div.
      apply Hi in I. destruct I as (R & K). apply kd_fw_imp in K. apply reach_fw in R. destruct R as (u & E & L). apply fw_inj in E. now subst u.
    - intros (L & T). apply in_map_iff. exists (fw t). split; [apply fw_div|]. apply Hi. split; [apply reach_fw; eauto|now apply kd_fw_imp]. }
  exists (map Nat.div2 imps). split; [apply map_div_nodup; auto|]. split; [exact Ht|]. rewrite map_length.
  assert (C : (if blocking (sk a) then b_transport sk st a true else nb_transport_fw sk st a true) = match map Nat.div2 imps with [] => NotBound | t :: _ => Reaches t end).
  { assert (D : target (sk a) -> match map Nat.div2 imps with [] => NotBound | t :: _ => Reaches t end = Reaches a).
    { intros T. destruct (map Nat.div2 imps) as [|t l] eqn:E.
      - destruct (proj2 (Ht a) (conj (leads_refl _ _ a) T)).
      - destruct (proj1 (Ht t) (or_introl eq_refl)) as (L & _). now rewrite (leads_target _ _ _ T L). }
    assert (E : forward st (fw a) = match map Nat.div2 imps with [] => NotBound | t :: _ => Reaches t end) by (unfold forward; rewrite M; destruct imps; reflexivity).
    unfold b_transport, nb_transport_fw. unfold target in D. destruct (sk a); cbn [blocking]; try exact E; symmetry; apply D; auto. }
  rewrite C. split; [now intros ->|]. split; [|split; assumption].
  intros X. destruct (map Nat.div2 imps) as [|t l]; [now destruct X|]. exists t. split; [now left|reflexivity].
Qed.

(** ** C203: the backward path *)
(** A backward call goes to an initiator that was connected with this very socket. *)
Theorem C203_backward log ord st b : no_loop sk log -> sockets sk nm log ord st -> In (bw b) ord -> blocking (sk b) = false -> sk b <> NbInit ->
  exists is, NoDup is /\ (forall i, In i is <-> In (i, b) log /\ sk i = NbInit) /\
    (is = [] -> nb_transport_bw sk st b true = NotBound) /\
    (is <> [] -> exists i, In i is /\ nb_transport_bw sk st b true = Reaches i) /\
    count_occ report_dec (reported st) (bw b, TooFew) = (if Nat.ltb (length is) 1 then 1 else 0) /\
    count_occ report_dec (reported st) (bw b, TooMany) = (if Nat.ltb 1 (length is) then 1 else 0).
Proof.
  intros A He Hp B Nb. destruct (at_port _ _ _ _ A He Hp) as (imps & N & Hi & M & F & G).
  assert (Bb : sk b = NbPassInit \/ sk b = NbPassTarget \/ sk b = NbTarget) by (destruct (sk b); try discriminate B; auto; now destruct Nb).
  assert (Fw : forall x, In x imps -> exists t, x = bw t /\ backed log t b).
  { intros x I. apply Hi in I. destruct I as (R & K). apply reach_bw in R. destruct R as [->|(t & -> & R)]; [|eauto]. apply kd_bw_imp in K. now destruct Nb. }
  exists (map Nat.div2 imps). split; [apply map_div_nodup; auto; right; intros x I; destruct (Fw x I) as (t & -> & _); eauto|]. rewrite map_length. split.
  { intros t. split.
    - intros I. apply in_map_iff in I. destruct I as (x & <- & I). destruct (Fw x I) as (t & -> & (D1 & D2 & _)). now rewrite bw_div.
    - intros (L & T). apply in_map_iff. exists (bw t). split; [apply bw_div|]. apply Hi. split; [apply reach_bw|now apply kd_bw_imp].
      right. exists t. split; [reflexivity|]. split; [exact L|]. split; assumption. }
  assert (C : nb_transport_bw sk st b true = match map Nat.div2 imps with [] => NotBound | t :: _ => Reaches t end).
  { transitivity (forward st (bw b)); [unfold nb_transport_bw; destruct Bb as [->|[->| ->]]; reflexivity|]. unfold forward. rewrite M. destruct imps; reflexivity. }
  rewrite C. split; [now intros ->|]. split; [|split; assumption].
  intros X. destruct (map Nat.div2 imps) as [|t l]; [now destruct X|]. exists t. split; [now left|reflexivity].
Qed.
(** If elaboration reports nothing, every non-blocking target and the one initiator connected
    with it call each other. *)
Theorem C203_round_trip log ord st t : no_loop sk log -> sockets sk nm log ord st -> sk t = NbTarget ->
  In (bw t) ord -> (forall i, In (i, t) log -> In (fw i) ord) -> reported st = [] ->
  exists i, In (i, t) log /\ sk i = NbInit /\ nb_transport_bw sk st t true = Reaches i /\ nb_transport_fw sk st i true = Reaches t.
Proof.
  intros A He T Hb Hf R. destruct (C203_backward _ _ _ t A He Hb) as (is & _ & I & _ & C & F & _); [now rewrite T|now rewrite T|].
  rewrite R in F. cbn [count_occ] in F. destruct (Nat.ltb_spec (length is) 1) as [L|L]; [discriminate F|].
  destruct C as (i & Ii & E); [intros ->; cbn in L; lia|]. apply I in Ii. destruct Ii as (Il & K). exists i. do 3 (split; [assumption|]).
  destruct (C202_forward _ _ _ i A He (Hf i Il)) as (ts & _ & Ht & _ & C & _ & M). rewrite K in C. cbn [blocking] in C.
  assert (It : In t ts).
  { apply Ht. split; [|now left]. apply leads_step with t; [|constructor]. split; [exact Il|]. unfold target, pass_target. rewrite K, T.
    split; [intros ->; congruence|]. split; [reflexivity|]. split; [intros [X|X]; discriminate X|]. intros [X|X]; discriminate X. }
  destruct C as (u & Iu & ->); [intros ->; destruct It|]. rewrite R in M. cbn [count_occ] in M. destruct (Nat.ltb_spec 1 (length ts)) as [L2|L2]; [discriminate M|].
  destruct ts as [|x [|y l]]; [destruct It| |cbn in L2; lia]. destruct It as [->|[]], Iu as [->|[]]. reflexivity.
Qed.
(** A target that is only connected through passthrough sockets has no way back. *)
Theorem C203_no_way_back log ord st t : no_loop sk log -> sockets sk nm log ord st -> sk t = NbTarget -> In (bw t) ord ->
  (forall i, In (i, t) log -> sk i <> NbInit) ->
  nb_transport_bw sk st t true = NotBound /\ In (bw t, TooFew) (reported st).
Proof.
  intros A He T Hb D. destruct (C203_backward _ _ _ t A He Hb) as (is & _ & I & C & _ & F & _); [now rewrite T|now rewrite T|].
  assert (is = []) as ->. { destruct is as [|i l]; [reflexivity|]. destruct (proj1 (I i) (or_introl eq_refl)) as (J & K). now destruct (D i J). }
  split; [auto|]. apply (count_occ_In report_dec). rewrite F. cbn. lia.
Qed.

(** ** C204: what a socket offers and accepts *)
(** A null delay never gets anywhere; each family has its own calls, an initiator none back. *)
Theorem C204_calls st a d :
  (b_transport sk st a d <> NoMethod <-> blocking (sk a) = true) /\
  (nb_transport_fw sk st a d <> NoMethod <-> blocking (sk a) = false) /\
  (nb_transport_bw sk st a d <> NoMethod <-> blocking (sk a) = false /\ sk a <> NbInit) /\
  (forall t, b_transport sk st a false <> Reaches t /\ nb_transport_fw sk st a false <> Reaches t /\ nb_transport_bw sk st a false <> Reaches t).
Proof.
  unfold b_transport, nb_transport_fw, nb_transport_bw, forward.
  destruct (sk a) eqn:E; cbn [blocking]; destruct d, (m_if st (fw a)), (m_if st (bw a)); repeat split; intros; try discriminate; try congruence.
  all: match goal with H : _ /\ _ |- _ => destruct H; congruence end.
Qed.
(** An initiator reports a provider of the other family and another initiator; the latter is
    connected nevertheless. *)
Theorem C204_mismatch log a b : sk a = NbInit \/ sk a = BInit ->
  (mismatch sk a b = true <-> blocking (sk b) <> blocking (sk a) \/ sk b = NbInit \/ sk b = BInit) /\
  (In (a, b) log -> mismatch sk a b = true -> (joined sk log a b <-> sk b = sk a /\ a <> b)) /\
  (In (a, b) log -> mismatch sk a b = false -> joined sk log a b).
Proof.
  intros K. unfold mismatch, joined, target, pass_target.
  destruct K as [K|K]; rewrite K; destruct (sk b) eqn:E; cbn [blocking].
  all: (split; [|split]).
  all: try (split; intros; [|reflexivity]; repeat match goal with H : _ \/ _ |- _ => destruct H end; try discriminate; auto; fail).
  all: try (split; [discriminate|]; intros [H|[H|H]]; congruence).
  all: try discriminate.
  all: try (split; [intros _|reflexivity]; first [left; discriminate|now right; left|now right; right]).
  all: try (intros I _; split; [intros (_ & H1 & H2 & _); try discriminate H2; auto|intros (H1 & H2); try discriminate H1]).
  all: try (intros I _). all: repeat split; auto; try congruence; try (intros [H|H]; discriminate H).
Qed.
End Proofs.

(** ** Examples *)
(** 0 an initiator, 1 a target; 2 an initiator, 3 a passthrough initiator, 4 a passthrough
    target, 5 a target behind them *)
Definition ex_sk (s : nat) : skind :=
  match s with 0 | 2 => NbInit | 1 | 5 => NbTarget | 3 => NbPassInit | _ => NbPassTarget end.
Definition ex_log := [(0, 1); (2, 3); (3, 4); (4, 5)].
Definition ex_ord := seq 0 12.
Example C202_example : no_loop ex_sk ex_log /\ exists st, sockets ex_sk (fun p => p) ex_log ex_ord st /\
  nb_transport_fw ex_sk st 2 true = Reaches 5 /\ nb_transport_fw ex_sk st 0 true = Reaches 1 /\ b_transport ex_sk st 0 true = NoMethod.
Proof.
  split.
  - exists (fun s => 6 - s). intros a b ([H|[H|[H|[H|[]]]]] & _); injection H as <- <-; cbn; lia.
  - apply (elaborated_ex _ _ _ _ _ _ _ _ 8). vm_compute. auto.
Qed.
(** The first pair is bound both ways. Behind the passthrough sockets the initiator can only
    be called from the first of them. *)
Example C203_example : exists st, sockets ex_sk (fun p => p) ex_log ex_ord st /\
  nb_transport_bw ex_sk st 1 true = Reaches 0 /\ nb_transport_bw ex_sk st 3 true = Reaches 2 /\
  nb_transport_bw ex_sk st 4 true = NotBound /\ nb_transport_bw ex_sk st 5 true = NotBound /\
  reported st = [(bw 4, TooFew); (bw 5, TooFew)].
Proof. apply (elaborated_ex _ _ _ _ _ _ _ _ 8). vm_compute. auto 6. Qed.
Example C203_round_example : exists st, sockets ex_sk (fun p => p) [(0, 1)] [0; 1; 2; 3] st /\ reported st = [].
Proof. apply (elaborated_ex _ _ _ _ _ _ _ _ 8). vm_compute. auto. Qed.
(** Two initiators at a target: both are accepted, both reach it, only one is called back, and
    only the target's backward port is reported. *)
Example C203_two_initiators : exists st, sockets ex_sk (fun p => p) [(0, 1); (2, 1)] [0; 1; 2; 3; 4; 5] st /\
  nb_transport_fw ex_sk st 0 true = Reaches 1 /\ nb_transport_fw ex_sk st 2 true = Reaches 1 /\
  nb_transport_bw ex_sk st 1 true = Reaches 0 /\ reported st = [(bw 1, TooMany)].
Proof. apply (elaborated_ex _ _ _ _ _ _ _ _ 8). vm_compute. auto. Qed.
Example C204_example : mismatch ex_sk 0 2 = true /\ joined ex_sk [(0, 2)] 0 2 /\ mismatch ex_sk 0 1 = false.
Proof. split; [reflexivity|]. split; [|reflexivity]. repeat split; cbn; auto; try discriminate; unfold target, pass_target; cbn; intros [X|X]; discriminate X. Qed.
Print Assumptions C202_terminates.
Print Assumptions C202_forward.
Print Assumptions C203_backward.
Print Assumptions C203_round_trip.
Print Assumptions C203_no_way_back.
Print Assumptions C204_calls.
Print Assumptions C204_mismatch.
