From Coq Require Import ZArith List Bool Arith Lia.
From Verif Require Import Prelude BusModel BusSpec.
Import ListNotations.
Local Open Scope nat_scope.

Lemma sq_eqb_spec a b : reflect (a = b) (sq_eqb a b).
Proof.
  destruct a as [n|n], b as [m|m]; cbn; try (constructor; discriminate);
    destruct (Nat.eqb_spec n m); constructor; congruence.
Qed.
Lemma sq_eqb_refl a : sq_eqb a a = true.
Proof. now destruct (sq_eqb_spec a a). Qed.

Ltac bs := cbn [proc free regs seen rq rdepth quiet fresh set_proc set_free set_regs set_rq set_opts set_fresh fst snd] in *.

(** Only the beginnings and ends of accesses matter. *)
Definition still (o : list bout) : Prop :=
  forall e, In e o -> match e with Began _ _ _ _ | Done _ _ _ _ _ => False | _ => True end.

Record binv (s : bus) (tr : list bout) : Prop := {
  bi_reg : forall n, In (Dflt n) (regs s) <->
             (exists p r k, In (Began p r k (Dflt n)) tr) /\ (forall p r ok, ~ In (Done p r Rd (Dflt n) ok) tr);
  bi_proc : forall p a, proc s p = Bus a \/ proc s p = Resp a ->
             In (Began p (ar a) (ak a) (aseq a)) tr /\
             match aseq a with
             | User _ => atmp a = false
             | Dflt n => atmp a = true /\ forall p' r' k' ok, ~ In (Done p' r' k' (Dflt n) ok) tr
             end;
  bi_fresh : forall p r k n, In (Began p r k (Dflt n)) tr -> n < fresh s;
  bi_uniq : forall p r k p' r' k' n, In (Began p r k (Dflt n)) tr -> In (Began p' r' k' (Dflt n)) tr ->
             p = p' /\ r = r' /\ k = k';
  bi_done : forall p r k q ok, In (Done p r k q ok) tr -> In (Began p r k q) tr;
  bi_seen : forall n, seen s (Dflt n) = true -> n < fresh s
}.

Lemma still_began o p r k q tr : still o -> In (Began p r k q) (tr ++ o) <-> In (Began p r k q) tr.
Proof. intros H. rewrite in_app_iff. split; [|auto]. intros [X|X]; [auto|]. now apply H in X. Qed.
Lemma still_done o p r k q ok tr : still o -> In (Done p r k q ok) (tr ++ o) <-> In (Done p r k q ok) tr.
Proof. intros H. rewrite in_app_iff. split; [|auto]. intros [X|X]; [auto|]. now apply H in X. Qed.

(** A step that begins and ends nothing. *)
Lemma binv_still s s' tr o : still o -> binv s tr ->
  (forall n, In (Dflt n) (regs s') <-> In (Dflt n) (regs s)) -> fresh s' = fresh s -> (forall n, seen s' (Dflt n) = seen s (Dflt n)) ->
  (forall p a, proc s' p = Bus a \/ proc s' p = Resp a ->
     exists a', (proc s p = Bus a' \/ proc s p = Resp a') /\ ar a' = ar a /\ ak a' = ak a /\ aseq a' = aseq a /\ atmp a' = atmp a) ->
  binv s' (tr ++ o).
Proof.
  intros H [I1 I2 I3 I4 I5 I6] Er Ef Es Ep. constructor.
  - intros n. rewrite Er, I1. split; intros [(p & r & k & A) B]; (split; [exists p, r, k|]).
    + now apply still_began.
    + intros p' r' ok X. apply still_done in X; [|auto]. now apply B in X.
    + apply still_began in A; auto.
    + intros p' r' ok X. apply (B p' r' ok). now apply still_done.
  - intros p a X. destruct (Ep p a X) as (a' & Y & E1 & E2 & E3 & E4). destruct (I2 p a' Y) as [A B].
    rewrite E1, E2, E3, E4 in *. split; [now apply still_began|]. destruct (aseq a); [exact B|]. destruct B as [B C]. split; [exact B|].
    intros p' r' k' ok Z. apply still_done in Z; [|auto]. now apply C in Z.
  - intros p r k n X. apply still_began in X; [|auto]. rewrite Ef. eauto.
  - intros p r k p' r' k' n X Y. apply still_began in X; [|auto]. apply still_began in Y; [|auto]. eauto.
  - intros p r k q ok X. apply still_done in X; [|auto]. apply still_began; auto.
    eauto.
  - intros n. rewrite Es, Ef. auto.
Qed.

Lemma deliver_spec s q : let '(s1, o) := deliver s q in
  proc s1 = proc s /\ free s1 = free s /\ regs s1 = regs s /\ seen s1 = seen s /\ fresh s1 = fresh s /\
  rdepth s1 = rdepth s /\ quiet s1 = quiet s /\ (forall q', q' <> q -> rq s1 q' = rq s q') /\
  (forall e, In e o -> e = Queued q \/ e = Overflow q \/ e = Unknown q).
Proof.
  unfold deliver. destruct (existsb _ _); [destruct (_ || _)%bool|]; bs; repeat split; auto.
  - intros q' N. unfold updq. now destruct (sq_eqb_spec q' q).
  - intros e [<-|[]]. auto.
  - intros e. destruct (quiet s q); [intros []|]. intros [<-|[]]. auto.
  - intros e [<-|[]]. auto.
Qed.
Lemma deliver_still s q : still (snd (deliver s q)).
Proof.
  pose proof (deliver_spec s q) as H. destruct (deliver s q) as [s1 o]. destruct H as (_ & _ & _ & _ & _ & _ & _ & _ & H).
  intros e X. apply H in X as [-> | [-> | ->]]; exact I.
Qed.

Lemma binv_begin s tr p r k q n : binv s tr ->
  binv (fst (begin s p r k q n)) (tr ++ snd (begin s p r k q n)).
Proof.
  intros [I1 I2 I3 I4 I5 I6]. unfold begin. destruct q as [u|]; bs.
  - (* a sequence of the user *)
    assert (Rg : forall m, In (Dflt m) (regs (register (set_free s r false) (User u))) <-> In (Dflt m) (regs s)).
    { intros m. unfold register. bs. destruct (seen s (User u)); bs; [easy|]. rewrite in_app_iff. cbn.
      split; [intros [X|[X|[]]]; [auto|discriminate]|auto]. }
    assert (Fr : fresh (register (set_free s r false) (User u)) = fresh s).
    { unfold register. bs. now destruct (seen s (User u)). }
    assert (Sn : forall m, seen (register (set_free s r false) (User u)) (Dflt m) = seen s (Dflt m)).
    { intros m. unfold register. bs. now destruct (seen s (User u)). }
    assert (Pr : proc (register (set_free s r false) (User u)) = proc s).
    { unfold register. bs. now destruct (seen s (User u)). }
    constructor; bs.
    + intros m. rewrite Rg, I1. split; intros [(p0 & r0 & k0 & A) B]; (split; [exists p0, r0, k0|]).
      * apply in_app_iff. auto.
      * intros p' r' ok X. apply in_app_iff in X as [X|[X|[]]]; [now apply B in X|discriminate].
      * apply in_app_iff in A as [A|[A|[]]]; [auto|discriminate].
      * intros p' r' ok X. apply (B p' r' ok). apply in_app_iff. auto.
    + intros p0 a. rewrite Pr. unfold upd. destruct (Nat.eqb_spec p0 p) as [->|N].
      * intros [X|X]; inversion X; subst. cbn [ar ak aseq atmp]. split; [apply in_app_iff; right; now left|reflexivity].
      * intros X. destruct (I2 p0 a X) as [A B]. split; [apply in_app_iff; auto|]. destruct (aseq a); [exact B|].
        destruct B as [B C]. split; [exact B|]. intros p' r' k' ok Z. apply in_app_iff in Z as [Z|[Z|[]]]; [now apply C in Z|discriminate].
    + intros p0 r0 k0 m X. rewrite Fr. apply in_app_iff in X as [X|[X|[]]]; [eauto|discriminate].
    + intros p0 r0 k0 p' r' k' m X Y. apply in_app_iff in X as [X|[X|[]]]; [|discriminate].
      apply in_app_iff in Y as [Y|[Y|[]]]; [eauto|discriminate].
    + intros p0 r0 k0 q0 ok X. apply in_app_iff in X as [X|[X|[]]]; [|discriminate]. apply in_app_iff. left. eauto.
    + intros m. rewrite Sn, Fr. auto.
  - (* a new default sequence *)
    assert (Nb : forall p' r' k', ~ In (Began p' r' k' (Dflt (fresh s))) tr).
    { intros p' r' k' X. apply I3 in X. lia. }
    assert (Ns : seen s (Dflt (fresh s)) = false).
    { destruct (seen s (Dflt (fresh s))) eqn:E; [|auto]. apply I6 in E. lia. }
    assert (Nd : forall p' r' k' ok, ~ In (Done p' r' k' (Dflt (fresh s)) ok) tr).
    { intros p' r' k' ok X. apply I5, Nb in X. exact X. }
    unfold register. bs. rewrite Ns. constructor; bs.
    + intros m. rewrite in_app_iff, I1. cbn [In]. destruct (Nat.eq_dec m (fresh s)) as [->|N].
      * split; [intros _|auto]. split; [exists p, r, k; apply in_app_iff; right; now left|].
        intros p' r' ok X. apply in_app_iff in X as [X|[X|[]]]; [now apply Nd in X|discriminate].
      * split.
        -- intros [[(p0 & r0 & k0 & A) B]|[X|[]]]; [|congruence]. split; [exists p0, r0, k0; apply in_app_iff; auto|].
           intros p' r' ok X. apply in_app_iff in X as [X|[X|[]]]; [now apply B in X|discriminate].
        -- intros [(p0 & r0 & k0 & A) B]. left. split.
           ++ exists p0, r0, k0. apply in_app_iff in A as [A|[A|[]]]; [auto|congruence].
           ++ intros p' r' ok X. apply (B p' r' ok). apply in_app_iff. auto.
    + intros p0 a. unfold upd. destruct (Nat.eqb_spec p0 p) as [->|N].
      * intros [X|X]; inversion X; subst. cbn [ar ak aseq atmp]. split; [apply in_app_iff; right; now left|]. split; [reflexivity|].
        intros p' r' k' ok Z. apply in_app_iff in Z as [Z|[Z|[]]]; [now apply Nd in Z|discriminate].
      * intros X. destruct (I2 p0 a X) as [A B]. split; [apply in_app_iff; auto|]. destruct (aseq a); [exact B|].
        destruct B as [B C]. split; [exact B|]. intros p' r' k' ok Z. apply in_app_iff in Z as [Z|[Z|[]]]; [now apply C in Z|discriminate].
    + intros p0 r0 k0 m X. apply in_app_iff in X as [X|[X|[]]]; [apply I3 in X; lia|]. injection X as <- <- <- <-. lia.
    + intros p0 r0 k0 p' r' k' m X Y. apply in_app_iff in X as [X|[X|[]]], Y as [Y|[Y|[]]].
      * eauto.
      * injection Y as <- <- <- <-. now apply Nb in X.
      * injection X as <- <- <- <-. now apply Nb in Y.
      * injection X as <- <- <- <-. injection Y as <- <- <-. auto.
    + intros p0 r0 k0 q0 ok X. apply in_app_iff in X as [X|[X|[]]]; [|discriminate]. apply in_app_iff. left. eauto.
    + intros m. unfold updq. destruct (sq_eqb_spec (Dflt m) (Dflt (fresh s))) as [[= ->]|N]; [lia|]. intros X. apply I6 in X. lia.
Qed.

Lemma in_unregister s q x : In x (regs (unregister s q)) <-> In x (regs s) /\ x <> q.
Proof.
  unfold unregister. bs. rewrite filter_In. destruct (sq_eqb_spec x q); cbn; intuition congruence.
Qed.

Lemma binv_finish s tr p a ok : binv s tr -> proc s p = Bus a ->
  binv (fst (finish s p a ok)) (tr ++ snd (finish s p a ok)).
Proof.
  intros [I1 I2 I3 I4 I5 I6] Ep. unfold finish. bs.
  destruct (I2 p a (or_introl Ep)) as [A0 B0].
  set (s1 := match ak a with Wr => s | Rd => if atmp a then unregister s (aseq a) else s end).
  assert (Fr : fresh s1 = fresh s) by (unfold s1; destruct (ak a); [auto|]; now destruct (atmp a)).
  assert (Sn : seen s1 = seen s) by (unfold s1; destruct (ak a); [auto|]; now destruct (atmp a)).
  assert (Pr : proc s1 = proc s) by (unfold s1; destruct (ak a); [auto|]; now destruct (atmp a)).
  assert (Rg : forall n, In (Dflt n) (regs s1) <-> In (Dflt n) (regs s) /\ ~ (ak a = Rd /\ aseq a = Dflt n)).
  { intros n. unfold s1. destruct (ak a) eqn:Ek; [intuition discriminate|]. destruct (atmp a) eqn:Et.
    - rewrite in_unregister. intuition congruence.
    - destruct (aseq a); [intuition discriminate|]. destruct B0. discriminate. }
  constructor; bs.
  - intros n. rewrite Rg, I1. split.
    + intros [[(p0 & r0 & k0 & A) B] C]. split; [exists p0, r0, k0; apply in_app_iff; auto|].
      intros p' r' ok' X. apply in_app_iff in X as [X|[X|[]]]; [now apply B in X|]. injection X as <- <- E1 E2 _. auto.
    + intros [(p0 & r0 & k0 & A) B]. split; [split|].
      * exists p0, r0, k0. apply in_app_iff in A as [A|[A|[]]]; [auto|discriminate].
      * intros p' r' ok' X. apply (B p' r' ok'). apply in_app_iff. auto.
      * intros [E1 E2]. apply (B p (ar a) ok). apply in_app_iff. right. left. congruence.
  - intros p0 a0. rewrite Pr. unfold upd. destruct (Nat.eqb_spec p0 p) as [->|N]; [intros [X|X]; discriminate|].
    intros X. destruct (I2 p0 a0 X) as [A B]. split; [apply in_app_iff; auto|]. destruct (aseq a0) as [|n] eqn:Eq; [exact B|].
    destruct B as [B C]. split; [exact B|]. intros p' r' k' ok' Z. apply in_app_iff in Z as [Z|[Z|[]]]; [now apply C in Z|].
    injection Z as <- <- <- E _. rewrite E in A0. destruct (I4 _ _ _ _ _ _ _ A A0). congruence.
  - intros p0 r0 k0 m X. rewrite Fr. apply in_app_iff in X as [X|[X|[]]]; [eauto|discriminate].
  - intros p0 r0 k0 p' r' k' m X Y. apply in_app_iff in X as [X|[X|[]]]; [|discriminate].
    apply in_app_iff in Y as [Y|[Y|[]]]; [eauto|discriminate].
  - intros p0 r0 k0 q0 ok' X. apply in_app_iff in X as [X|[X|[]]].
    + apply in_app_iff. left. eauto.
    + injection X as <- <- <- <- _. apply in_app_iff. auto.
  - intros m. rewrite Sn, Fr. auto.
Qed.

Lemma nil_still : still []. Proof. intros e []. Qed.

Lemma binv_next v s tr p a ok : binv s tr -> proc s p = Bus a ->
  binv (fst (next v s p a ok)) (tr ++ snd (next v s p a ok)).
Proof.
  intros H Ep. unfold next. destruct v.
  - destruct (Nat.eqb _ 0); unfold fetch_none; bs.
    + apply (binv_still s); bs; auto using nil_still; try easy. intros p0 a0. unfold upd.
      destruct (Nat.eqb_spec p0 p) as [->|N]; [|eauto 8]. intros [X|X]; inversion X; subst. exists a0. auto.
    + apply (binv_still s); bs; auto; try easy.
      * intros e [<-|[]]. exact I.
      * intros p0 a0. unfold upd. destruct (Nat.eqb_spec p0 p) as [->|N]; [intros [X|X]; discriminate|eauto 8].
  - destruct (_ || _)%bool; [now apply binv_finish|].
    apply (binv_still s); bs; auto using nil_still; try easy. intros p0 a0. unfold upd.
    destruct (Nat.eqb_spec p0 p) as [->|N]; [|eauto 8]. intros [X|X]; inversion X; subst. exists a. auto.
Qed.

Lemma binv_step v s tr l : binv s tr -> binv (fst (bstep v s l)) (tr ++ snd (bstep v s l)).
Proof.
  intros H. assert (Id : binv s (tr ++ [])) by now rewrite app_nil_r.
  destruct l as [p r k q n|p|p ok rsp|p|q|q|n|r|q d|q b]; cbn [bstep].
  - destruct (proc s p) eqn:E; bs; try exact Id. destruct (free s r); [now apply binv_begin|].
    apply (binv_still s); bs; auto using nil_still; try easy. intros p0 a0. unfold upd.
    destruct (Nat.eqb_spec p0 p) as [->|N]; [intros [X|X]; discriminate|eauto 8].
  - destruct (proc s p) eqn:E; bs; try exact Id. destruct (free s r); [now apply binv_begin|exact Id].
  - destruct (proc s p) as [| |a|] eqn:E; bs; try exact Id.
    set (d := if rsp then deliver s (aseq a) else (s, [])).
    assert (D : proc (fst d) = proc s /\ regs (fst d) = regs s /\ seen (fst d) = seen s /\ fresh (fst d) = fresh s /\ still (snd d)).
    { unfold d. destruct rsp; [|repeat split; auto using nil_still]. pose proof (deliver_spec s (aseq a)) as X.
      pose proof (deliver_still s (aseq a)) as Y. destruct (deliver s (aseq a)) as [s1 o]. intuition. }
    destruct d as [s1 o1]. destruct D as (D1 & D2 & D3 & D4 & D5). bs.
    assert (H1 : binv s1 (tr ++ Moved p (ar a) (aseq a) ok rsp :: o1)).
    { apply (binv_still s); auto.
      - intros e [<-|X]; [exact I|]. now apply D5.
      - now rewrite D2.
      - now rewrite D3.
      - rewrite D1. eauto 8. }
    pose proof (binv_next v s1 _ p a ok H1) as H2. rewrite D1 in H2. specialize (H2 E).
    destruct (next v s1 p a ok) as [s2 o2]. bs.
    rewrite app_comm_cons, app_assoc. exact H2.
  - destruct (proc s p) as [| | |a] eqn:E; bs; try exact Id. destruct (Nat.eqb _ 0); [exact Id|]. unfold fetch_none; bs.
    apply (binv_still s); bs; auto; try easy.
    + intros e [<-|[]]. exact I.
    + intros p0 a0. unfold upd. destruct (Nat.eqb_spec p0 p) as [->|N]; [intros [X|X]; discriminate|eauto 8].
  - pose proof (deliver_spec s q) as X. pose proof (deliver_still s q) as Y. destruct (deliver s q) as [s1 o].
    destruct X as (X1 & X2 & X3 & X4 & X5 & _). bs. apply (binv_still s); auto.
    + now rewrite X3.
    + now rewrite X4.
    + rewrite X1. eauto 8.
  - apply (binv_still s); bs; auto using nil_still; try easy. eauto 8.
  - apply (binv_still s); bs; auto using nil_still; try easy; [|eauto 8]. intros m. rewrite in_unregister. intuition congruence.
  - apply (binv_still s); bs; auto using nil_still; try easy. eauto 8.
  - apply (binv_still s); bs; auto using nil_still; try easy. eauto 8.
  - apply (binv_still s); bs; auto using nil_still; try easy. eauto 8.
Qed.

Lemma binv0 : binv bus0 [].
Proof.
  constructor; cbn; try easy.
  - intros n. split; [intros []|]. intros [(? & ? & ? & []) _].
  - intros p a [X|X]; discriminate.
Qed.
Lemma binv_run v ls : binv (fst (run_machine (bstep v) bus0 ls)) (snd (run_machine (bstep v) bus0 ls)).
Proof.
  change (snd (run_machine (bstep v) bus0 ls)) with ([] ++ snd (run_machine (bstep v) bus0 ls)).
  apply (run_machine_inv (bstep v) binv); [intros; now apply binv_step|apply binv0].
Qed.

(** ** Adapters that provide responses *)
Lemma count_app {A} (f : A -> bool) l1 l2 : count f (l1 ++ l2) = count f l1 + count f l2.
Proof. unfold count. now rewrite filter_app, app_length. Qed.
Lemma count_cons {A} (f : A -> bool) x l : count f (x :: l) = (if f x then 1 else 0) + count f l.
Proof. unfold count. cbn. now destruct (f x). Qed.
Lemma count_nil {A} (f : A -> bool) : count f [] = 0.
Proof. reflexivity. Qed.
Lemma count_none {A} (f : A -> bool) l : (forall x, In x l -> f x = false) -> count f l = 0.
Proof.
  induction l as [|x l IH]; intros H; [reflexivity|]. rewrite count_cons, (H x (or_introl eq_refl)), IH; auto.
  intros y Y. apply H. now right.
Qed.
Lemma deliver_count f s q : f (Queued q) = false -> f (Overflow q) = false -> f (Unknown q) = false -> count f (snd (deliver s q)) = 0.
Proof.
  intros A B C. apply count_none. intros x X. pose proof (deliver_spec s q) as D. destruct (deliver s q) as [s1 o].
  destruct D as (_ & _ & _ & _ & _ & _ & _ & _ & D). apply D in X as [-> | [-> | ->]]; auto.
Qed.

Lemma begin_spec s p r k q n : exists q1 t, snd (begin s p r k q n) = [Began p r k q1] /\
  proc (fst (begin s p r k q n)) = upd (proc s) p (Bus (Acc r k q1 t n)) /\
  free (fst (begin s p r k q n)) = upd (free s) r false /\ rq (fst (begin s p r k q n)) = rq s /\
  rdepth (fst (begin s p r k q n)) = rdepth s /\ quiet (fst (begin s p r k q n)) = quiet s.
Proof.
  unfold begin. destruct q as [u|]; bs; unfold register; bs; destruct (seen s _); bs; eauto 10.
Qed.

Lemma xfer_split v s p a ok rsp : proc s p = Bus a -> exists s1 o1,
  bstep v s (Xfer p ok rsp) = (fst (next v s1 p a ok), Moved p (ar a) (aseq a) ok rsp :: o1 ++ snd (next v s1 p a ok)) /\
  (s1, o1) = (if rsp then deliver s (aseq a) else (s, [])).
Proof.
  intros E. cbn [bstep]. rewrite E. destruct (if rsp then deliver s (aseq a) else (s, [])) as [s1 o1].
  exists s1, o1. split; [|reflexivity]. now destruct (next v s1 p a ok).
Qed.
Lemma deliver_opt s q (rsp : bool) s1 o1 : (s1, o1) = (if rsp then deliver s q else (s, [])) ->
  proc s1 = proc s /\ free s1 = free s /\ regs s1 = regs s /\ seen s1 = seen s /\
  rdepth s1 = rdepth s /\ quiet s1 = quiet s /\ (forall q', q' <> q -> rq s1 q' = rq s q') /\
  (forall e, In e o1 -> e = Queued q \/ e = Overflow q \/ e = Unknown q).
Proof.
  destruct rsp; intros E.
  - pose proof (deliver_spec s q) as D. rewrite <- E in D. intuition.
  - injection E as -> ->. repeat split; auto. intros e [].
Qed.

Definition b2n (b : bool) : nat := if b then 1 else 0.

Lemma provides_step s l r : let '(s1, o) := bstep true s l in
  (forall p r k q ok, ~ In (Done p r k q ok) o) /\
  count (begins r) o + b2n (free s1 r) <= b2n (free s r) + b2n (resets r l).
Proof.
  assert (Id : (forall p r k q ok, ~ In (Done p r k q ok) []) /\
     count (begins r) [] + b2n (free s r) <= b2n (free s r) + b2n (resets r l)) by (split; [intros * []|cbn; lia]).
  assert (Bg : forall p r0 k q n, free s r0 = true -> let '(s1, o) := begin s p r0 k q n in
     (forall p r k q ok, ~ In (Done p r k q ok) o) /\ count (begins r) o + b2n (free s1 r) <= b2n (free s r) + b2n (resets r l)).
  { intros p r0 k q n F. destruct (begin_spec s p r0 k q n) as (q1 & t & E1 & _ & E3 & _). destruct (begin s p r0 k q n) as [s1 o].
    bs. subst o. split; [intros * [X|[]]; discriminate|]. rewrite count_cons, count_nil, E3. cbn [begins]. unfold upd.
    destruct (Nat.eqb_spec r0 r) as [->|N].
    - rewrite Nat.eqb_refl, F. cbn. lia.
    - destruct (Nat.eqb_spec r r0); [congruence|]. cbn. lia. }
  destruct l as [p r0 k q n|p|p ok rsp|p|q|q|n|r0|q d|q b].
  - cbn [bstep]. destruct (proc s p); try exact Id. destruct (free s r0) eqn:F; [now apply Bg|exact Id].
  - cbn [bstep]. destruct (proc s p); try exact Id. destruct (free s r0) eqn:F; [now apply Bg|exact Id].
  - destruct (proc s p) as [| |a|] eqn:E; try (cbn [bstep]; rewrite E; exact Id).
    destruct (xfer_split true s p a ok rsp E) as (s1 & o1 & -> & Ed). apply deliver_opt in Ed as (_ & F & _ & _ & _ & _ & _ & O).
    unfold next, fetch_none. destruct (Nat.eqb (rq s1 (aseq a)) 0); bs; rewrite F.
    + split; [intros * [X|X]; [discriminate|]; rewrite app_nil_r in X; apply O in X; intuition discriminate|].
      rewrite app_nil_r, count_cons, (count_none _ o1); [cbn; lia|]. intros e X. apply O in X as [-> | [-> | ->]]; reflexivity.
    + split; [intros * [X|X]; [discriminate|]; apply in_app_iff in X as [X|[X|[]]]; [apply O in X; intuition discriminate|discriminate]|].
      rewrite count_cons, count_app, (count_none _ o1); [cbn; lia|]. intros e X. apply O in X as [-> | [-> | ->]]; reflexivity.
  - cbn [bstep]. destruct (proc s p) as [| | |a] eqn:E; try exact Id. destruct (Nat.eqb _ 0); [exact Id|]. unfold fetch_none. bs.
    split; [intros * [X|[]]; discriminate|]. cbn. lia.
  - cbn [bstep]. pose proof (deliver_spec s q) as D. destruct (deliver s q) as [s1 o]. destruct D as (_ & -> & _ & _ & _ & _ & _ & _ & D).
    split; [intros * X; apply D in X; intuition discriminate|]. rewrite (count_none _ o); [cbn; lia|].
    intros e X. apply D in X as [-> | [-> | ->]]; reflexivity.
  - exact Id.
  - exact Id.
  - cbn [bstep]. bs. split; [intros * []|]. rewrite count_nil. unfold upd. cbn [resets].
    destruct (Nat.eqb_spec r r0) as [->|N]; [rewrite Nat.eqb_refl; cbn; destruct (free s r0); cbn; lia|].
    destruct (Nat.eqb_spec r0 r); [congruence|]. cbn. lia.
  - exact Id.
  - exact Id.
Qed.

Lemma provides_run ls r : forall s, let '(s1, o) := run_machine (bstep true) s ls in
  (forall p r k q ok, ~ In (Done p r k q ok) o) /\
  count (begins r) o + b2n (free s1 r) <= b2n (free s r) + count (resets r) ls.
Proof.
  induction ls as [|l ls IH]; intros s; cbn [run_machine].
  - split; [intros * []|]. cbn. lia.
  - pose proof (provides_step s l r) as H. destruct (bstep true s l) as [s1 o1]. specialize (IH s1).
    destruct (run_machine (bstep true) s1 ls) as [s2 o2]. destruct H as [H1 H2], IH as [J1 J2]. split.
    + intros p r' k q ok X. apply in_app_iff in X as [X|X]; [now apply H1 in X|now apply J1 in X].
    + rewrite count_app, count_cons. change (if resets r l then 1 else 0) with (b2n (resets r l)). lia.
Qed.

(** Without responses nothing raises, and all queues stay empty. *)
Lemma mute_step v s l : mute l -> (forall q, rq s q = 0) ->
  (forall q, rq (fst (bstep v s l)) q = 0) /\ forall p r k q, ~ In (Raised p r k q) (snd (bstep v s l)).
Proof.
  intros M Z.
  assert (Id : (forall q, rq s q = 0) /\ forall p r k q, ~ In (Raised p r k q) []) by (split; [auto|intros * []]).
  assert (Bg : forall p r k q n, (forall q', rq (fst (begin s p r k q n)) q' = 0) /\
     forall p' r' k' q', ~ In (Raised p' r' k' q') (snd (begin s p r k q n))).
  { intros p r k q n. destruct (begin_spec s p r k q n) as (q1 & t & -> & _ & _ & -> & _). split; [auto|].
    intros * [X|[]]. discriminate. }
  destruct l as [p r k q n|p|p ok rsp|p|q|q|n|r|q d|q b]; cbn [bstep].
  - destruct (proc s p); try exact Id. destruct (free s r); [apply Bg|exact Id].
  - destruct (proc s p); try exact Id. destruct (free s r); [apply Bg|exact Id].
  - cbn in M. subst rsp. destruct (proc s p) as [| |a|]; try exact Id. unfold next, fetch_none, finish.
    destruct v; bs.
    + rewrite Z. cbn. split; [auto|]. intros * [X|[]]; discriminate.
    + destruct (_ || _)%bool; bs.
      * split; [|intros * [X|[X|[]]]; discriminate]. intros q. destruct (ak a); [auto|]. destruct (atmp a); apply Z.
      * split; [auto|]. intros * [X|[]]; discriminate.
  - destruct (proc s p) as [| | |a]; try exact Id. rewrite Z. exact Id.
  - destruct M.
  - bs. split; [|intros * []]. intros q0. unfold updq. destruct (sq_eqb q0 q); [rewrite Z|]; auto.
  - exact Id.
  - exact Id.
  - exact Id.
  - exact Id.
Qed.
Lemma mute_run v ls : Forall mute ls -> forall s, (forall q, rq s q = 0) ->
  forall p r k q, ~ In (Raised p r k q) (snd (run_machine (bstep v) s ls)).
Proof.
  induction ls as [|l ls IH]; intros M s Z p r k q; cbn [run_machine]; [intros []|].
  apply Forall_cons_iff in M as [M1 M2]. destruct (mute_step v s l M1 Z) as [Z1 N].
  destruct (bstep v s l) as [s1 o1]. bs. specialize (IH M2 s1 Z1 p r k q).
  destruct (run_machine (bstep v) s1 ls) as [s2 o2]. bs. intros X. apply in_app_iff in X as [X|X]; [now apply N in X|auto].
Qed.

(** One transfer for each access. *)
Definition busy (x : pst) : nat := match x with Bus _ => 1 | _ => 0 end.
Lemma single_step s l p : let '(s1, o) := bstep true s l in
  count (moves p) o + busy (proc s1 p) <= busy (proc s p) + count (starts p) o.
Proof.
  assert (Bg : forall p0 r0 k q n, busy (proc s p0) = 0 -> let '(s1, o) := begin s p0 r0 k q n in
     count (moves p) o + busy (proc s1 p) <= busy (proc s p) + count (starts p) o).
  { intros p0 r0 k q n F. destruct (begin_spec s p0 r0 k q n) as (q1 & t & E1 & E2 & _). destruct (begin s p0 r0 k q n) as [s1 o].
    bs. subst o. rewrite E2, !count_cons, !count_nil. cbn [moves starts]. unfold upd.
    destruct (Nat.eqb_spec p p0) as [->|N]; [rewrite Nat.eqb_refl; cbn; lia|]. destruct (Nat.eqb_spec p0 p); [congruence|]. lia. }
  destruct l as [p0 r0 k q n|p0|p0 ok rsp|p0|q|q|n|r0|q d|q b].
  - cbn [bstep]. destruct (proc s p0) eqn:E; try (cbn; lia). destruct (free s r0) eqn:F; [apply Bg; now rewrite E|].
    bs. unfold upd. destruct (Nat.eqb_spec p p0); cbn; lia.
  - cbn [bstep]. destruct (proc s p0) eqn:E; try (cbn; lia). destruct (free s r) eqn:F; [apply Bg; now rewrite E|cbn; lia].
  - destruct (proc s p0) as [| |a|] eqn:E; try (cbn [bstep]; rewrite E; cbn; lia).
    destruct (xfer_split true s p0 a ok rsp E) as (s1 & o1 & -> & Ed). apply deliver_opt in Ed as (P & _ & _ & _ & _ & _ & _ & O).
    assert (C1 : count (moves p) o1 = 0) by (apply count_none; intros e X; apply O in X as [-> | [-> | ->]]; reflexivity).
    assert (C2 : count (starts p) o1 = 0) by (apply count_none; intros e X; apply O in X as [-> | [-> | ->]]; reflexivity).
    unfold next, fetch_none. destruct (Nat.eqb (rq s1 (aseq a)) 0); bs; rewrite P, !count_cons, !count_app, C1, C2;
      unfold upd; cbn [moves starts]; rewrite ?count_cons, !count_nil; cbn [moves starts];
      (destruct (Nat.eqb_spec p p0) as [->|N]; [rewrite Nat.eqb_refl, E; cbn; lia|]; destruct (Nat.eqb_spec p0 p); [congruence|]; lia).
  - cbn [bstep]. destruct (proc s p0) as [| | |a] eqn:E; try (cbn; lia). destruct (Nat.eqb _ 0); [cbn; lia|]. unfold fetch_none. bs.
    rewrite !count_cons, !count_nil. cbn [moves starts]. unfold upd. destruct (Nat.eqb_spec p p0); cbn; lia.
  - cbn [bstep]. pose proof (deliver_spec s q) as D. destruct (deliver s q) as [s1 o]. destruct D as (-> & _ & _ & _ & _ & _ & _ & _ & D).
    rewrite (count_none (moves p) o); [lia|]. intros e X. apply D in X as [-> | [-> | ->]]; reflexivity.
  - cbn. lia.
  - cbn. lia.
  - cbn. lia.
  - cbn. lia.
  - cbn. lia.
Qed.
Lemma single_run ls p : forall s, let '(s1, o) := run_machine (bstep true) s ls in
  count (moves p) o + busy (proc s1 p) <= busy (proc s p) + count (starts p) o.
Proof.
  induction ls as [|l ls IH]; intros s; cbn [run_machine]; [cbn; lia|].
  pose proof (single_step s l p) as H. destruct (bstep true s l) as [s1 o1]. specialize (IH s1).
  destruct (run_machine (bstep true) s1 ls) as [s2 o2]. rewrite !count_app. lia.
Qed.

(** ** Adapters that do not *)
Record rinv (q : sq) (s : bus) (tr : list bout) : Prop := {
  ri_rq : rq s q = Nat.min 8 (count (answered q) tr);
  ri_ov : count (overflows q) tr = count (answered q) tr - 8;
  ri_depth : rdepth s q = 8%Z;
  ri_quiet : quiet s q = false;
  ri_noresp : forall p a, proc s p <> Resp a;
  ri_user : forall u, q = User u -> (seen s q = true -> In q (regs s)) /\ forall p a, proc s p = Bus a -> aseq a = q -> seen s q = true
}.

Lemma in_existsb q l : In q l -> existsb (sq_eqb q) l = true.
Proof. intros H. apply existsb_exists. exists q. split; [exact H|apply sq_eqb_refl]. Qed.

Lemma rinv_bus q s tr p a : binv s tr -> rinv q s tr -> proc s p = Bus a -> aseq a = q -> In q (regs s).
Proof.
  intros B R E Eq. destruct q as [u|n].
  - destruct (ri_user _ _ _ R u eq_refl) as [H1 H2]. apply H1. eapply H2; eauto.
  - destruct (bi_proc _ _ B p a (or_introl E)) as [H1 H2]. rewrite Eq in H1, H2. destruct H2 as [_ H2].
    apply (bi_reg _ _ B). split; [eauto|]. intros p' r' ok. apply H2.
Qed.

Lemma rinv_keep q s s' tr o : rinv q s tr -> rq s' q = rq s q -> rdepth s' q = rdepth s q -> quiet s' q = quiet s q ->
  (forall p a, proc s' p <> Resp a) ->
  (forall u, q = User u -> (seen s' q = true -> In q (regs s')) /\ forall p a, proc s' p = Bus a -> aseq a = q -> seen s' q = true) ->
  count (answered q) o = 0 -> count (overflows q) o = 0 -> rinv q s' (tr ++ o).
Proof.
  intros [R1 R2 R3 R4 R5 R6] E1 E2 E3 E4 E5 C1 C2. constructor; rewrite ?count_app, ?C1, ?C2, ?Nat.add_0_r; congruence || auto.
Qed.

Lemma rinv_begin q s tr p r k u n : rinv q s tr -> rinv q (fst (begin s p r k u n)) (tr ++ snd (begin s p r k u n)).
Proof.
  intros R. destruct (begin_spec s p r k u n) as (q1 & t & E1 & E2 & E3 & E4 & E5 & E6).
  apply (rinv_keep q s); auto; rewrite ?E1, ?E4, ?E5, ?E6; auto.
  - intros p0 a. rewrite E2. unfold upd. destruct (Nat.eqb p0 p); [discriminate|apply (ri_noresp _ _ _ R)].
  - intros w ->. destruct (ri_user _ _ _ R w eq_refl) as [H1 H2]. unfold begin. destruct u as [u|]; bs; unfold register; bs.
    + destruct (seen s (User u)) eqn:Es; bs.
      * split; [exact H1|]. intros p0 a. unfold upd. destruct (Nat.eqb p0 p); [|apply H2]. intros [= <-] X. cbn [aseq] in X. congruence.
      * unfold updq. destruct (sq_eqb_spec (User w) (User u)) as [X|X].
        -- split; [intros _; apply in_app_iff; right; left; auto|auto].
        -- split; [intros Y; apply in_app_iff; auto|]. intros p0 a. unfold upd. destruct (Nat.eqb p0 p); [|apply H2].
           intros [= <-] Y. cbn [aseq] in Y. congruence.
    + destruct (seen s (Dflt (fresh s))) eqn:Es; bs.
      * split; [exact H1|]. intros p0 a. unfold upd. destruct (Nat.eqb p0 p); [|apply H2]. intros [= <-] X. discriminate X.
      * unfold updq. cbn [sq_eqb]. split; [intros Y; apply in_app_iff; auto|]. intros p0 a. unfold upd. destruct (Nat.eqb p0 p); [|apply H2].
        intros [= <-] Y. discriminate Y.
Qed.

Lemma rinv_next q s tr p a ok : binv s tr -> rinv q s tr -> proc s p = Bus a ->
  rinv q (fst (next false s p a ok)) (tr ++ snd (next false s p a ok)).
Proof.
  intros B R Ep. pose proof (bi_proc _ _ B p a (or_introl Ep)) as [_ Bp].
  assert (U : forall w, q = User w -> (seen s q = true -> In q (regs s)) /\ forall p0 a0, proc s p0 = Bus a0 -> aseq a0 = q -> seen s q = true)
    by apply (ri_user _ _ _ R).
  unfold next, finish. destruct (_ || _)%bool; bs.
  - set (s1 := match ak a with Wr => s | Rd => if atmp a then unregister s (aseq a) else s end).
    assert (E : rq s1 = rq s /\ rdepth s1 = rdepth s /\ quiet s1 = quiet s /\ proc s1 = proc s /\ seen s1 = seen s
                /\ forall w, In (User w) (regs s) -> In (User w) (regs s1)).
    { unfold s1. destruct (ak a); [repeat split; auto|]. destruct (atmp a) eqn:Et; [|repeat split; auto].
      repeat split; auto. intros w X. apply in_unregister. split; [exact X|]. intros Y. rewrite <- Y in Bp. discriminate. }
    destruct E as (E1 & E2 & E3 & E4 & E5 & E6).
    apply (rinv_keep q s); bs; auto; rewrite ?E1, ?E2, ?E3, ?E4, ?E5; auto.
    + intros p0 a0. unfold upd. destruct (Nat.eqb p0 p); [discriminate|apply (ri_noresp _ _ _ R)].
    + intros w ->. destruct (U w eq_refl) as [H1 H2]. split; [auto|]. intros p0 a0. unfold upd.
      destruct (Nat.eqb p0 p); [discriminate|apply H2].
  - apply (rinv_keep q s); bs; auto.
    + intros p0 a0. unfold upd. destruct (Nat.eqb p0 p); [discriminate|apply (ri_noresp _ _ _ R)].
    + intros w ->. destruct (U w eq_refl) as [H1 H2]. split; [auto|]. intros p0 a0. unfold upd.
      destruct (Nat.eqb_spec p0 p) as [->|N]; [|apply H2]. intros [= <-] X. cbn [aseq] in X. eauto.
Qed.

(** A response for q. *)
Lemma rinv_deliver q s tr s1 o p r ok : binv s tr -> rinv q s tr -> In q (regs s) -> deliver s q = (s1, o) ->
  rinv q s1 (tr ++ Moved p r q ok true :: o).
Proof.
  intros B [R1 R2 R3 R4 R5 R6] Hin. unfold deliver. rewrite (in_existsb _ _ Hin), R3, R4. cbn [orb].
  assert (C : forall o', count (answered q) (tr ++ Moved p r q ok true :: o') = count (answered q) tr + 1 + count (answered q) o'
                      /\ count (overflows q) (tr ++ Moved p r q ok true :: o') = count (overflows q) tr + count (overflows q) o').
  { intros o'. rewrite !count_app, !count_cons. cbn [answered overflows]. rewrite sq_eqb_refl. split; lia. }
  change (8 =? -1)%Z with false. cbn [orb]. destruct (Z.ltb_spec (Z.of_nat (rq s q)) 8) as [L|L]; intros [= <- <-].
  - destruct (C [Queued q]) as [C1 C2]. rewrite count_cons, count_nil in C1, C2. cbn [answered overflows] in C1, C2. constructor; bs; auto.
    + rewrite C1. unfold updq. rewrite sq_eqb_refl. lia.
    + rewrite C1, C2. lia.
  - destruct (C [Overflow q]) as [C1 C2]. rewrite count_cons, count_nil in C1, C2. cbn [answered overflows] in C1, C2.
    rewrite sq_eqb_refl in C2. constructor; bs; auto.
    + rewrite C1. lia.
    + rewrite C1, C2. lia.
Qed.

Lemma rinv_step q s tr l : leaves_alone q l -> binv s tr -> rinv q s tr ->
  rinv q (fst (bstep false s l)) (tr ++ snd (bstep false s l)).
Proof.
  intros La B R. assert (Id : rinv q s (tr ++ [])) by now rewrite app_nil_r.
  assert (U : forall w, q = User w -> (seen s q = true -> In q (regs s)) /\ forall p0 a0, proc s p0 = Bus a0 -> aseq a0 = q -> seen s q = true)
    by apply (ri_user _ _ _ R).
  pose proof (ri_noresp _ _ _ R) as NR.
  destruct l as [p r k u n|p|p ok rsp|p|q'|q'|n|r|q' d|q' b].
  - cbn [bstep]. destruct (proc s p) eqn:E; bs; try exact Id. destruct (free s r); [now apply rinv_begin|].
    apply (rinv_keep q s); bs; auto.
    + intros p0 a0. unfold upd. destruct (Nat.eqb p0 p); [discriminate|apply NR].
    + intros w ->. destruct (U w eq_refl) as [H1 H2]. split; [auto|]. intros p0 a0. unfold upd.
      destruct (Nat.eqb p0 p); [discriminate|apply H2].
  - cbn [bstep]. destruct (proc s p) eqn:E; bs; try exact Id. destruct (free s r); [now apply rinv_begin|exact Id].
  - destruct (proc s p) as [| |a|] eqn:E; try (cbn [bstep]; rewrite E; exact Id).
    pose proof (binv_step false s tr (Xfer p ok false) B) as B1.
    destruct (xfer_split false s p a ok rsp E) as (s1 & o1 & -> & Ed). bs.
    pose proof (deliver_opt _ _ _ _ _ Ed) as (D1 & D2 & D3 & D4 & D5 & D6 & D7 & D8).
    assert (Bs : binv s1 (tr ++ Moved p (ar a) (aseq a) ok rsp :: o1)).
    { apply (binv_still s); auto.
      - intros e [<-|X]; [exact I|]. apply D8 in X as [-> | [-> | ->]]; exact I.
      - now rewrite D3.
      - destruct rsp; [|now injection Ed as -> ->]. pose proof (deliver_spec s (aseq a)) as X. rewrite <- Ed in X. intuition.
      - now rewrite D4.
      - rewrite D1. eauto 8. }
    assert (R1 : rinv q s1 (tr ++ Moved p (ar a) (aseq a) ok rsp :: o1)).
    { destruct (sq_eqb_spec (aseq a) q) as [Eq|Nq].
      - destruct rsp.
        + rewrite Eq in *. apply (rinv_deliver q s); auto. eapply rinv_bus; eauto.
        + injection Ed as -> ->. apply (rinv_keep q s); auto.
      - apply (rinv_keep q s); auto; rewrite ?D1, ?D3, ?D4, ?D5, ?D6; auto.
        + rewrite count_cons. cbn [answered]. destruct (sq_eqb_spec (aseq a) q); [congruence|].
          destruct rsp; cbn [Nat.add]; apply count_none; intros e X; apply D8 in X as [-> | [-> | ->]]; reflexivity.
        + rewrite count_cons. cbn [overflows Nat.add]. apply count_none. intros e X. apply D8 in X as [-> | [-> | ->]]; try reflexivity.
          cbn [overflows]. destruct (sq_eqb_spec (aseq a) q); congruence. }
    rewrite app_comm_cons, app_assoc. apply rinv_next; auto. now rewrite D1.
  - cbn [bstep]. destruct (proc s p) as [| | |a] eqn:E; bs; try exact Id. now apply NR in E.
  - cbn [bstep leaves_alone] in *. pose proof (deliver_spec s q') as D. destruct (deliver s q') as [s1 o].
    destruct D as (D1 & D2 & D3 & D4 & D5 & D6 & D7 & D8 & D9). bs.
    apply (rinv_keep q s); auto; rewrite ?D1, ?D3, ?D4, ?D6, ?D7; auto; apply count_none; intros e X;
      apply D9 in X as [-> | [-> | ->]]; try reflexivity. cbn [overflows]. destruct (sq_eqb_spec q' q); congruence.
  - cbn [bstep leaves_alone] in *. apply (rinv_keep q s); bs; auto. unfold updq. destruct (sq_eqb_spec q q'); congruence.
  - cbn [bstep leaves_alone] in *. apply (rinv_keep q s); bs; auto. intros w Ew. destruct (U w Ew) as [H1 H2]. split; [|exact H2].
    intros X. apply in_unregister. split; [auto|congruence].
  - cbn [bstep]. apply (rinv_keep q s); bs; auto.
  - cbn [bstep leaves_alone] in *. apply (rinv_keep q s); bs; auto. unfold updq. destruct (sq_eqb_spec q (User q')); congruence.
  - cbn [bstep leaves_alone] in *. apply (rinv_keep q s); bs; auto. unfold updq. destruct (sq_eqb_spec q (User q')); congruence.
Qed.

Lemma rinv_run q ls : Forall (leaves_alone q) ls ->
  rinv q (fst (run_machine (bstep false) bus0 ls)) (snd (run_machine (bstep false) bus0 ls)).
Proof.
  intros F. assert (H : binv (fst (run_machine (bstep false) bus0 ls)) ([] ++ snd (run_machine (bstep false) bus0 ls)) /\
    rinv q (fst (run_machine (bstep false) bus0 ls)) ([] ++ snd (run_machine (bstep false) bus0 ls))).
  { apply (run_machine_inv_ok (bstep false) (leaves_alone q) (fun s tr => binv s tr /\ rinv q s tr)); auto.
    - intros s tr l O [B R]. split; [now apply binv_step|now apply rinv_step].
    - split; [apply binv0|]. constructor; cbn; auto; try discriminate. intros u _. split; [discriminate|]. intros; discriminate. }
  apply H.
Qed.

(** ** The status of an access *)
Lemma ends_none p o : (forall e, In e o -> ends p e = false) -> filter (ends p) o = [].
Proof.
  induction o as [|e o IH]; intros H; [reflexivity|]. cbn [filter]. rewrite (H e (or_introl eq_refl)). apply IH.
  intros x X. apply H. now right.
Qed.

(** A step that is not p's own leaves p where it is. *)
Lemma other_step v s l p : calls_not p l -> (forall ok rsp, l <> Xfer p ok rsp) -> l <> Take p -> l <> Wake p ->
  proc (fst (bstep v s l)) p = proc s p /\ filter (ends p) (snd (bstep v s l)) = [].
Proof.
  intros C N1 N2 N3.
  assert (Bg : forall p0 r k q n, p0 <> p -> proc (fst (begin s p0 r k q n)) p = proc s p /\ filter (ends p) (snd (begin s p0 r k q n)) = []).
  { intros p0 r k q n N. destruct (begin_spec s p0 r k q n) as (q1 & t & -> & -> & _). rewrite upd_neq by auto. auto. }
  assert (Fn : forall s1 p0 a, p0 <> p -> proc (fst (fetch_none s1 p0 a)) p = proc s1 p /\ filter (ends p) (snd (fetch_none s1 p0 a)) = []).
  { intros s1 p0 a N. unfold fetch_none. bs. rewrite upd_neq by auto. cbn. destruct (Nat.eqb_spec p0 p); [congruence|auto]. }
  destruct l as [p0 r k u n|p0|p0 ok rsp|p0|q'|q'|n|r|q' d|q' b].
  - cbn [bstep calls_not] in *. destruct (proc s p0); try (split; reflexivity). destruct (free s r); [now apply Bg|]. bs.
    now rewrite upd_neq by auto.
  - assert (p0 <> p) by congruence. cbn [bstep]. destruct (proc s p0); try (split; reflexivity). destruct (free s r); [now apply Bg|auto].
  - assert (N : p0 <> p) by (intros ->; now apply (N1 ok rsp)). destruct (proc s p0) as [| |a|] eqn:E; try (cbn [bstep]; rewrite E; split; reflexivity).
    destruct (xfer_split v s p0 a ok rsp E) as (s1 & o1 & -> & Ed). bs. apply deliver_opt in Ed as (D1 & _ & _ & _ & _ & _ & _ & D8).
    cbn [filter ends]. rewrite filter_app, (ends_none p o1) by (intros e X; apply D8 in X as [-> | [-> | ->]]; reflexivity).
    cbn [app]. rewrite <- D1. unfold next. destruct v.
    + destruct (Nat.eqb _ 0); [bs; now rewrite upd_neq by auto|]. now apply Fn.
    + destruct (_ || _)%bool; bs; [|now rewrite upd_neq by auto]. unfold finish. bs. rewrite upd_neq by auto. split.
      * destruct (ak a); [auto|]. now destruct (atmp a).
      * cbn. destruct (Nat.eqb_spec p0 p); [congruence|auto].
  - assert (p0 <> p) by congruence. cbn [bstep]. destruct (proc s p0); try (split; reflexivity). destruct (Nat.eqb _ 0); [auto|now apply Fn].
  - cbn [bstep]. pose proof (deliver_spec s q') as D. destruct (deliver s q') as [s1 o]. bs. destruct D as (-> & _ & _ & _ & _ & _ & _ & _ & D).
    split; [reflexivity|]. apply ends_none. intros e X. apply D in X as [-> | [-> | ->]]; reflexivity.
  - split; reflexivity.
  - split; reflexivity.
  - split; reflexivity.
  - split; reflexivity.
  - split; reflexivity.
Qed.

Lemma idle_run ls p : Forall (calls_not p) ls -> forall s, proc s p = Idle ->
  filter (ends p) (snd (run_machine (bstep false) s ls)) = [].
Proof.
  induction ls as [|l ls IH]; intros F s E; [reflexivity|]. cbn [run_machine]. apply Forall_cons_iff in F as [F1 F2].
  assert (H : proc (fst (bstep false s l)) p = Idle /\ filter (ends p) (snd (bstep false s l)) = []).
  { destruct l as [p0 r k u n|p0|p0 ok rsp|p0|q'|q'|n|r|q' d|q' b];
      try solve [match goal with |- proc (fst (bstep false s ?l)) p = _ /\ _ => destruct (other_step false s l p F1) as [-> ->]; [discriminate|discriminate|discriminate|auto] end].
    - destruct (Nat.eq_dec p0 p) as [->|N]; [cbn [bstep]; now rewrite E|].
      destruct (other_step false s (Take p0) p F1) as [-> ->]; try congruence; auto.
    - destruct (Nat.eq_dec p0 p) as [->|N]; [cbn [bstep]; now rewrite E|].
      destruct (other_step false s (Xfer p0 ok rsp) p F1) as [-> ->]; try congruence; auto.
    - destruct (Nat.eq_dec p0 p) as [->|N]; [cbn [bstep]; now rewrite E|].
      destruct (other_step false s (Wake p0) p F1) as [-> ->]; try congruence; auto. }
  destruct H as [H1 H2]. destruct (bstep false s l) as [s1 o1]. bs. specialize (IH F2 s1 H1).
  destruct (run_machine (bstep false) s1 ls) as [s2 o2]. bs. now rewrite filter_app, H2, IH.
Qed.

Lemma outcome_run ls p : Forall (calls_not p) ls -> forall s a, proc s p = Bus a ->
  filter (ends p) (snd (run_machine (bstep false) s ls)) =
  match outcome (aleft a) (answers p ls) with None => [] | Some ok => [Done p (ar a) (ak a) (aseq a) ok] end.
Proof.
  induction ls as [|l ls IH]; intros F s a E; [reflexivity|]. cbn [run_machine]. apply Forall_cons_iff in F as [F1 F2].
  assert (Oth : (forall ok rsp, l <> Xfer p ok rsp) -> l <> Take p -> l <> Wake p -> answers p (l :: ls) = answers p ls ->
    filter (ends p) (snd (let '(s1, o1) := bstep false s l in let '(s2, o2) := run_machine (bstep false) s1 ls in (s2, o1 ++ o2))) =
    match outcome (aleft a) (answers p (l :: ls)) with None => [] | Some ok => [Done p (ar a) (ak a) (aseq a) ok] end).
  { intros N1 N2 N3 Ea. destruct (other_step false s l p F1 N1 N2 N3) as [H1 H2]. destruct (bstep false s l) as [s1 o1]. bs.
    specialize (IH F2 s1 a (eq_trans H1 E)). destruct (run_machine (bstep false) s1 ls) as [s2 o2]. bs.
    now rewrite filter_app, H2, IH, Ea. }
  assert (Nop : bstep false s l = (s, []) -> answers p (l :: ls) = answers p ls ->
    filter (ends p) (snd (let '(s1, o1) := bstep false s l in let '(s2, o2) := run_machine (bstep false) s1 ls in (s2, o1 ++ o2))) =
    match outcome (aleft a) (answers p (l :: ls)) with None => [] | Some ok => [Done p (ar a) (ak a) (aseq a) ok] end).
  { intros -> ->. specialize (IH F2 s a E). destruct (run_machine (bstep false) s ls) as [s2 o2]. exact IH. }
  destruct l as [p0 r k u n|p0|p0 ok rsp|p0|q'|q'|n|r|q' d|q' b]; try (apply Oth; try discriminate; reflexivity).
  - destruct (Nat.eq_dec p0 p) as [->|N]; [apply Nop; [cbn [bstep]; now rewrite E|reflexivity]|apply Oth; congruence || reflexivity].
  - destruct (Nat.eq_dec p0 p) as [->|N].
    + clear Oth Nop. destruct (xfer_split false s p a ok rsp E) as (s1 & o1 & -> & Ed).
      apply deliver_opt in Ed as (D1 & _ & _ & _ & _ & _ & _ & D8). cbn [answers]. rewrite Nat.eqb_refl.
      assert (Z : filter (ends p) o1 = []) by (apply ends_none; intros e X; apply D8 in X as [-> | [-> | ->]]; reflexivity).
      unfold next, finish. destruct ok; cbn [negb orb outcome].
      * destruct (aleft a) as [|m] eqn:El; cbn [Nat.eqb]; bs.
        -- match goal with |- context [run_machine (bstep false) ?x ls] => pose proof (idle_run ls p F2 x) as H; specialize (H ltac:(bs; apply upd_eq));
             destruct (run_machine (bstep false) x ls) as [s2 o2] end. bs.
           cbn [app filter ends]. rewrite !filter_app, Z, H. cbn [filter ends app]. now rewrite Nat.eqb_refl.
        -- match goal with |- context [run_machine (bstep false) ?x ls] => specialize (IH F2 x (Acc (ar a) (ak a) (aseq a) (atmp a) (S m - 1)));
             specialize (IH ltac:(bs; apply upd_eq)); destruct (run_machine (bstep false) x ls) as [s2 o2] end. bs.
           cbn [app filter ends]. rewrite !filter_app, Z. cbn [filter app]. cbn [aleft ar ak aseq] in IH.
           replace (S m - 1) with m in IH by lia. exact IH.
      * match goal with |- context [run_machine (bstep false) ?x ls] => pose proof (idle_run ls p F2 x) as H; specialize (H ltac:(bs; apply upd_eq));
          destruct (run_machine (bstep false) x ls) as [s2 o2] end. bs.
        cbn [app filter ends]. rewrite !filter_app, Z, H. cbn [filter ends app]. now rewrite Nat.eqb_refl.
    + apply Oth; try congruence. cbn [answers]. destruct (Nat.eqb_spec p0 p); [congruence|reflexivity].
  - destruct (Nat.eq_dec p0 p) as [->|N]; [apply Nop; [cbn [bstep]; now rewrite E|reflexivity]|apply Oth; congruence || reflexivity].
Qed.

(** A step begins at most one access; a new default sequence is the next one. *)
Lemma began_step v s l n : (forall p r k, ~ In (Began p r k (Dflt n)) (snd (bstep v s l))) \/
  exists p r k, snd (bstep v s l) = [Began p r k (Dflt n)] /\ n = fresh s.
Proof.
  assert (Bg : forall p r k q m, (forall p' r' k', ~ In (Began p' r' k' (Dflt n)) (snd (begin s p r k q m))) \/
     exists p' r' k', snd (begin s p r k q m) = [Began p' r' k' (Dflt n)] /\ n = fresh s).
  { intros p r k q m. unfold begin. destruct q as [u|]; bs.
    - left. intros * [X|[]]; discriminate.
    - destruct (Nat.eq_dec n (fresh s)) as [->|N]; [right; eauto 6|]. left. intros * [X|[]]; congruence. }
  assert (Nil : (forall p r k, ~ In (Began p r k (Dflt n)) []) \/ exists p r k, [] = [Began p r k (Dflt n)] /\ n = fresh s)
    by (left; intros * []).
  destruct l as [p r k u m|p|p ok rsp|p|q'|q'|m|r|q' d|q' b].
  - cbn [bstep]. destruct (proc s p); try exact Nil. destruct (free s r); [apply Bg|exact Nil].
  - cbn [bstep]. destruct (proc s p); try exact Nil. destruct (free s r); [apply Bg|exact Nil].
  - destruct (proc s p) as [| |a|] eqn:E; try (cbn [bstep]; rewrite E; exact Nil).
    destruct (xfer_split v s p a ok rsp E) as (s1 & o1 & -> & Ed). bs. apply deliver_opt in Ed as (_ & _ & _ & _ & _ & _ & _ & D8).
    left. intros p' r' k' [X|X]; [discriminate|]. apply in_app_iff in X as [X|X]; [apply D8 in X; intuition discriminate|].
    unfold next, fetch_none, finish in X. destruct v.
    + destruct (Nat.eqb _ 0); cbn in X; intuition discriminate.
    + destruct (_ || _)%bool; cbn in X; intuition discriminate.
  - cbn [bstep]. destruct (proc s p) as [| | |a]; try exact Nil. destruct (Nat.eqb _ 0); [exact Nil|]. left.
    intros * [X|[]]. discriminate.
  - cbn [bstep]. pose proof (deliver_spec s q') as D. destruct (deliver s q') as [s1 o]. bs. destruct D as (_ & _ & _ & _ & _ & _ & _ & _ & D).
    left. intros * X. apply D in X; intuition discriminate.
  - exact Nil.
  - exact Nil.
  - exact Nil.
  - exact Nil.
  - exact Nil.
Qed.
