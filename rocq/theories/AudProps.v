(** Theorems about the audit trail of resources. *)
From Coq Require Import List String ZArith Bool Arith Lia.
From Verif Require Import Prelude AudModel AudSpec.
Import ListNotations.
Local Open Scope nat_scope.
Local Open Scope string_scope.

Definition after (h : list op) : state := fst (run (rev h)).
Lemma after_cons o h : after (o :: h) = fst (step (after h) o).
Proof.
  unfold after, run. cbn [rev]. rewrite run_machine_app. destruct (run_machine step state0 (rev h)) as [s os]. cbn.
  destruct (step s o) as [s' os']. reflexivity.
Qed.

Lemma val_eqb_same a b : val_eqb a b = if same a b then true else false.
Proof.
  destruct (same a b) as [->|N].
  - destruct b; cbn; auto. apply Z.eqb_refl.
  - destruct a as [x|], b as [y|]; cbn; auto; [|congruence]. apply Z.eqb_neq. congruence.
Qed.
Lemma keys_store k a l : map fst (store k a l) = once k (map fst l).
Proof.
  unfold once. induction l as [|[k' b] l IH]; cbn [store map fst]; [destruct (in_dec string_dec k []) as [[]|]; reflexivity|].
  destruct (String.eqb k k') eqn:E.
  - apply String.eqb_eq in E. subst. destruct (in_dec string_dec k' (k' :: map fst l)) as [I|N]; auto. destruct N. now left.
  - apply String.eqb_neq in E. cbn [map fst]. rewrite IH.
    destruct (in_dec string_dec k (map fst l)) as [I|N], (in_dec string_dec k (k' :: map fst l)) as [I'|N']; auto.
    + destruct N'. now right.
    + destruct I' as [X|X]; [congruence|tauto].
Qed.
Lemma look_store k a l k' : look k' (store k a l) = if String.eqb k k' then Some a else look k' l.
Proof.
  induction l as [|[k0 b] l IH]; cbn [store look].
  - rewrite String.eqb_sym. reflexivity.
  - destruct (String.eqb k k0) eqn:E; cbn [look].
    + apply String.eqb_eq in E. subst k0. rewrite (String.eqb_sym k' k). now destruct (String.eqb k k').
    + destruct (String.eqb k' k0) eqn:E'; auto. apply String.eqb_eq in E'. subst. now rewrite E.
Qed.
Lemma once_in k l x : In x (once k l) <-> In x l \/ x = k.
Proof.
  unfold once. destruct (in_dec string_dec k l) as [I|N].
  - split; auto. intros [H| ->]; auto.
  - rewrite in_app_iff. cbn. split; intros [H|H]; auto; try tauto. destruct H; auto; tauto.
Qed.
Lemma once_nodup k l : NoDup l -> NoDup (once k l).
Proof.
  unfold once. intros H. destruct (in_dec string_dec k l) as [I|N]; auto.
  apply NoDup_Add with (a := k) (l := l). { rewrite <- (app_nil_r l) at 1. apply Add_app. }
  auto.
Qed.

(** ** C227 *)
Definition counts (i : nat) (k : string) (h : list op) : option access_t :=
  match reads i k h, changes i k h with 0, 0 => None | r, c => Some (Access r c) end.
Definition good (h : list op) (s : state) : Prop :=
  auditing s = is_on h /\ get_record s = attempts h /\
  forall i, val (rsc s i) = value i h /\ read_only (rsc s i) = locked i h /\
    map fst (access (rsc s i)) = accessors i h /\
    forall k, look k (access (rsc s i)) = counts i k h.
Lemma record_counts i k h l : look k l = counts i k h -> record_for k l = Access (reads i k h) (changes i k h).
Proof. unfold record_for, counts. intros ->. destruct (reads i k h), (changes i k h); reflexivity. Qed.

Lemma good_after h : good h (after h).
Proof.
  induction h as [|o h IH]; [repeat split|]. rewrite after_cons. destruct IH as (A & G & R). destruct o as [j a|j v a|j|j|b|sc n f]; cbn [step].
  - cbn [fst]. repeat split; cbn [with_rsc auditing get_record rsc is_on attempts]; auto.
    all: unfold upd; destruct (Nat.eqb i j) eqn:E; [apply Nat.eqb_eq in E; subst j|]; destruct (R i) as (V & L & K & C); cbn [value locked accessors];
      try rewrite Nat.eqb_refl; try rewrite E; auto; unfold record_read_access; try rewrite A; cbn [andb].
    + destruct (is_on h); cbn; auto.
    + destruct (is_on h); cbn; auto.
    + destruct (is_on h); cbn; auto. rewrite keys_store. now rewrite K.
    + intros k. unfold counts. cbn [reads changes]. rewrite Nat.eqb_refl. cbn [andb]. destruct (is_on h); cbn [andb]; [|apply C].
      cbn [access]. rewrite look_store. change (match a with Some n => n | None => "<empty>" end) with (who a).
      destruct (String.eqb (who a) k) eqn:EK; [|apply C]. apply String.eqb_eq in EK. rewrite EK.
      rewrite (record_counts i k h) by auto. reflexivity.
    + intros k. unfold counts. cbn [reads changes]. rewrite E. cbn [andb]. apply C.
  - unfold write. destruct (R j) as (Vj & Lj & Kj & Cj). rewrite Vj, Lj, A, val_eqb_same.
    assert (KEEP : (locked j h = true \/ value j h = v) -> good (Write j v a :: h) (with_rsc (after h) j (rsc (after h) j))).
    { intros D. repeat split; cbn [with_rsc auditing get_record rsc is_on attempts]; auto.
      all: unfold upd; destruct (Nat.eqb i j) eqn:E; [apply Nat.eqb_eq in E; subst j|]; destruct (R i) as (V & L & K & C);
        cbn [value locked accessors]; try rewrite Nat.eqb_refl; try rewrite E; auto; cbn [andb].
      - rewrite V. destruct D as [-> | <-]; cbn; auto. now destruct (locked i h).
      - destruct a; auto. destruct D as [-> | ->]; rewrite ?andb_false_r; auto.
        destruct (same v v); [|congruence]. now rewrite ?andb_false_r.
      - destruct a; auto.
      - intros k. unfold counts. cbn [reads changes]. destruct a; [|apply C]. destruct D as [-> | ->]; rewrite ?andb_false_r; [apply C|].
        destruct (same v v); [|congruence]. rewrite ?andb_false_r. cbn [andb]. apply C.
      - intros k. unfold counts. cbn [reads changes]. destruct a; [|apply C]. rewrite E. cbn [andb]. apply C. }
    destruct (locked j h) eqn:EL; [apply KEEP; auto|]. destruct (same (value j h) v) as [ES|NS]; [apply KEEP; auto|]. clear KEEP.
    cbn [fst]. repeat split; cbn [with_rsc auditing get_record rsc is_on attempts]; auto.
    all: unfold upd; destruct (Nat.eqb i j) eqn:E; [apply Nat.eqb_eq in E; subst j|]; destruct (R i) as (V & L & K & C);
      cbn [value locked accessors]; try rewrite Nat.eqb_refl; try rewrite E; auto; cbn [andb]; try rewrite EL; cbn [negb andb]; auto.
    + cbn [read_only]. unfold record_write_access. destruct (is_on h), a; cbn; congruence.
    + cbn [access]. unfold record_write_access. destruct a as [n|], (is_on h); cbn [access andb]; auto.
      destruct (same (value i h) v); [congruence|]. rewrite keys_store. now rewrite K.
    + destruct a; auto.
    + intros k. unfold counts. cbn [reads changes access]. unfold record_write_access. destruct a as [n|]; [|destruct (is_on h); apply C].
      rewrite Nat.eqb_refl, EL. destruct (is_on h); cbn [andb negb]; [|apply C]. destruct (same (value i h) v); [congruence|]. cbn [andb access].
      rewrite look_store. destruct (String.eqb n k) eqn:EK; [|apply C]. apply String.eqb_eq in EK. subst n.
      rewrite (record_counts i k h) by auto. cbn. destruct (reads i k h); reflexivity.
    + intros k. unfold counts. cbn [reads changes]. destruct a; [|apply C]. rewrite E. cbn [andb]. apply C.
  - repeat split; cbn [fst with_rsc auditing get_record rsc is_on attempts]; auto.
    all: unfold upd; cbn [value locked accessors]; destruct (Nat.eqb i j) eqn:E; [apply Nat.eqb_eq in E; subst j|]; destruct (R i) as (V & L & K & C); auto.
  - repeat split; cbn [fst with_rsc auditing get_record rsc is_on attempts]; auto.
    all: unfold upd; cbn [value locked accessors]; destruct (Nat.eqb i j) eqn:E; [apply Nat.eqb_eq in E; subst j|]; destruct (R i) as (V & L & K & C); auto.
  - repeat split; cbn [fst auditing get_record rsc is_on attempts]; auto; apply R.
  - repeat split; cbn [fst auditing get_record rsc is_on attempts]; auto; try apply R. rewrite A, G. reflexivity.
Qed.

(** The records of a resource: one for each accessor with a recorded access, in the order of the
    first one, with the number of reads and of changes. *)
Theorem C227_records h i :
  map fst (access (rsc (after h) i)) = accessors i h /\
  (forall k, In k (accessors i h) <-> 0 < reads i k h + changes i k h) /\ NoDup (accessors i h) /\
  forall k a, In (k, a) (access (rsc (after h) i)) <-> In k (accessors i h) /\ a = Access (reads i k h) (changes i k h).
Proof.
  destruct (good_after h) as (_ & _ & R). destruct (R i) as (_ & _ & K & C). rewrite K. split; auto.
  assert (ACC : forall k, In k (accessors i h) <-> 0 < reads i k h + changes i k h).
  { intros k. specialize (C k). unfold counts in C. rewrite <- K. revert C. generalize (access (rsc (after h) i)). intros l C. split.
    - intros I. destruct (reads i k h), (changes i k h); try lia. exfalso. revert C. induction l as [|[k' b] l IH]; cbn in *; [tauto|].
      destruct (String.eqb k k') eqn:E; [discriminate|]. apply String.eqb_neq in E. destruct I as [I|I]; [congruence|auto].
    - intros P. assert (exists a, look k l = Some a) as [a E] by (destruct (reads i k h), (changes i k h); try lia; eauto). clear -E.
      induction l as [|[k' b] l IH]; cbn in *; [discriminate|]. destruct (String.eqb k k') eqn:X; auto. left. symmetry. now apply String.eqb_eq. }
  assert (ND : NoDup (accessors i h)).
  { clear. induction h as [|o h IH]; cbn; [constructor|]. destruct o as [j [a|]|j v [a|]|j|j|b|sc n f]; auto; destruct (_ && _); auto using once_nodup. }
  split; auto. split; auto. intros k a.
  assert (L : forall l, NoDup (map fst l) -> forall x, In (k, x) l <-> look k l = Some x).
  { clear. induction l as [|[k' b] l IH]; cbn [map fst look]; intros N x; [cbn; split; [tauto|discriminate]|].
    inversion N as [|? ? N1 N2]; subst. destruct (String.eqb k k') eqn:E.
    - apply String.eqb_eq in E. subst k'. split; [intros [X|X]; [congruence|]|intros X; left; congruence].
      destruct N1. apply in_map_iff. exists (k, x). auto.
    - apply String.eqb_neq in E. rewrite <- (IH N2 x). cbn. split; [intros [X|X]; [congruence|auto]|auto]. }
  rewrite L by now rewrite K. rewrite C. unfold counts. specialize (ACC k).
  destruct (reads i k h) eqn:ER, (changes i k h) eqn:EC; cbn in ACC |- *.
  - split; [discriminate|]. intros [I _]. apply ACC in I. lia.
  - split; [intros X; split; [apply ACC; lia|congruence]|intros [_ ->]; auto].
  - split; [intros X; split; [apply ACC; lia|congruence]|intros [_ ->]; auto].
  - split; [intros X; split; [apply ACC; lia|congruence]|intros [_ ->]; auto].
Qed.
Print Assumptions C227_records.

(** The history of gets, failed ones too. *)
Theorem C227_gets h : get_record (after h) = attempts h.
Proof. apply good_after. Qed.
Print Assumptions C227_gets.

(** Auditing, and who the accessors are, make no difference to what reads and writes do. *)
Theorem C227_transparent ls ls' : flat_map core_of ls = flat_map core_of ls' -> snd (run ls) = snd (run ls').
Proof.
  intros E.
  pose (cstep := fun (s : nat -> option Z * bool) (c : core) => match c with
    | CRead i => (s, [Value (fst (s i))])
    | CWrite i v => if snd (s i) then (s, [ErrReadOnly]) else (upd s i (v, false), [])
    | CLock i b => (upd s i (fst (s i), b), [])
    | CGet f => (s, [Found f]) end).
  assert (SIM : forall l s c, (forall i, c i = (val (rsc s i), read_only (rsc s i))) ->
    snd (run_machine step s l) = snd (run_machine cstep c (flat_map core_of l))).
  { clear. induction l as [|o l IH]; intros s c H; auto. cbn [flat_map]. rewrite run_machine_app.
    cbn [run_machine]. destruct (step s o) as [s1 o1] eqn:ES.
    destruct (run_machine cstep c (core_of o)) as [c1 p1] eqn:EC.
    assert (o1 = p1 /\ forall i, c1 i = (val (rsc s1 i), read_only (rsc s1 i))) as [<- H1].
    { destruct o as [j a|j v a|j|j|b|sc n f]; cbn [step core_of run_machine cstep] in *.
      - injection ES as <- <-. injection EC as <- <-. rewrite H. unfold record_read_access. split; [now destruct (auditing s)|].
        intros i. cbn [with_rsc rsc]. unfold upd. rewrite H. destruct (Nat.eqb i j) eqn:E; auto. apply Nat.eqb_eq in E. subst. now destruct (auditing s).
      - rewrite H in EC. cbn [snd] in EC. unfold write in ES. destruct (read_only (rsc s j)) eqn:ER.
        + injection ES as <- <-. injection EC as <- <-. split; auto. intros i. cbn [with_rsc rsc]. unfold upd. rewrite H.
          destruct (Nat.eqb i j) eqn:E; auto. apply Nat.eqb_eq in E. now subst.
        + injection EC as <- <-. rewrite val_eqb_same in ES. destruct (same (val (rsc s j)) v) as [EV|NV].
          * injection ES as <- <-. split; auto. intros i. cbn [with_rsc rsc]. unfold upd. destruct (Nat.eqb i j) eqn:E; [|apply H].
            apply Nat.eqb_eq in E. subst i. now rewrite EV, ER.
          * injection ES as <- <-. split; auto. intros i. cbn [with_rsc rsc]. unfold upd. destruct (Nat.eqb i j) eqn:E; [|apply H].
            cbn. unfold record_write_access. destruct (auditing s), a; cbn; now rewrite ER.
      - injection ES as <- <-. injection EC as <- <-. split; auto. intros i. cbn [with_rsc rsc]. unfold upd. rewrite !H. now destruct (Nat.eqb i j).
      - injection ES as <- <-. injection EC as <- <-. split; auto. intros i. cbn [with_rsc rsc]. unfold upd. rewrite !H. now destruct (Nat.eqb i j).
      - injection ES as <- <-. injection EC as <- <-. split; auto.
      - injection ES as <- <-. injection EC as <- <-. split; auto. }
    cbn [fst snd]. specialize (IH s1 c1 H1). destruct (run_machine step s1 l) as [s2 o2]. cbn [fst snd] in *. now rewrite IH. }
  unfold run. rewrite (SIM ls _ (fun _ => (None, false))), (SIM ls' _ (fun _ => (None, false))) by reflexivity. now rewrite E.
Qed.
Print Assumptions C227_transparent.

(** The trail cannot be shown: dump(audit=True) raises at the first resource there is. *)
Theorem C227_dump qs :
  dump qs false = DHead :: flat_map (fun q => match q with [] => [DNone] | _ => map DPrint q end) qs ++ [DEnd] /\
  (In DRaise (dump qs true) <-> exists q r, In q qs /\ In r q).
Proof.
  assert (P : forall q, print_resources q false = (map DPrint q, true)).
  { induction q as [|r q IH]; auto. cbn. now rewrite IH. }
  unfold dump. split.
  - f_equal. induction qs as [|q qs IH]; auto. cbn [dump_queues flat_map]. destruct q as [|r q]; [cbn; now rewrite IH|].
    rewrite P, IH. now rewrite app_assoc.
  - split.
    + intros [X|X]; [discriminate|]. induction qs as [|[|r q] qs IH]; cbn in X.
      * destruct X as [X|[]]. discriminate.
      * destruct X as [X|X]; [discriminate|]. destruct (IH X) as (q & r & I & J). exists q, r. cbn. auto.
      * exists (r :: q), r. cbn. auto.
    + intros (q & r & I & J). right. induction qs as [|[|r' q'] qs IH]; cbn in *.
      * destruct I.
      * right. apply IH. destruct I as [<-|I]; auto. destruct J.
      * auto.
Qed.
Print Assumptions C227_dump.

(** Reads without an accessor are recorded under one name, writes without one not at all; two
    accessors of one name share a record; what is done while auditing is off is never made up for. *)
Example C227_example :
  let h := rev [Write 0 (Some 5%Z) (Some "a"); Write 0 (Some 5%Z) (Some "b"); Write 0 (Some 6%Z) None; Read 0 None; Read 0 (Some "<empty>");
                Read 0 (Some "a"); Auditing false; Read 0 (Some "c"); GetByName "s" "n" (Some 0); Auditing true; SetReadOnly 0;
                Write 0 (Some 7%Z) (Some "d"); GetByName "s" "m" None; Read 1 (Some "c")] in
  access (rsc (after h) 0) = [("a", Access 1 1); ("<empty>", Access 2 0)] /\
  access (rsc (after h) 1) = [("c", Access 1 0)] /\
  get_record (after h) = [Get_t "m" "s" None] /\ accessors 0 h = ["a"; "<empty>"].
Proof. repeat split. Qed.
Example C227_transparent_example :
  flat_map core_of [Auditing false; Write 0 (Some 1%Z) None; Read 0 (Some "x")] = flat_map core_of [Write 0 (Some 1%Z) (Some "y"); Read 0 None].
Proof. reflexivity. Qed.
