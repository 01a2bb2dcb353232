(** Proofs about wait(cond, ev) and wait_modified. *)
From Coq Require Import List Bool Arith Lia.
From Verif Require Import Prelude WtModel WtSpec.
Import ListNotations.
Local Open Scope nat_scope.

Lemma upd_if {A} (f : nat -> A) i v j : upd f i v j = if j =? i then v else f j.
Proof. destruct (Nat.eqb_spec j i) as [->|N]; [apply upd_eq|now apply upd_neq]. Qed.

Section Wait.
Context {V : Type} (v0 : V).
Notation aft := (after v0).
Lemma value_ok h : val (aft h) = value v0 h /\ forall p, match procs (aft h) p with Some a => waits v0 h p = Some (cond a, next a) | None => waits v0 h p = None end.
Proof.
  induction h as [|l h [IV IP]]; [split; reflexivity|]. cbn [after value waits]. unfold says. set (y := aft h) in *. destruct l as [f| |q c g|q]; cbn [step].
  - rewrite IV. destruct (f (value v0 h)) as [v b]. destruct b; cbn; (split; [reflexivity|]); intros p; specialize (IP p); [|exact IP]. destruct (procs y p); exact IP.
  - split; [exact IV|exact IP].
  - pose proof (IP q) as Q. destruct (procs y q) as [a|] eqn:E.
    + cbn. split; [exact IV|]. intros p. specialize (IP p). destruct (Nat.eqb_spec q p) as [<-|]; [|exact IP]. rewrite E. now rewrite Q.
    + destruct (c (val y)); cbn.
      * split; [now rewrite IV|]. intros p. specialize (IP p). destruct (Nat.eqb_spec q p) as [<-|]; [|exact IP]. rewrite E, Q. rewrite ?Nat.eqb_refl. reflexivity.
      * split; [exact IV|]. intros p. specialize (IP p). rewrite upd_if, Nat.eqb_sym. destruct (Nat.eqb_spec q p) as [<-|]; [|exact IP]. rewrite Q. reflexivity.
  - pose proof (IP q) as Q. destruct (procs y q) as [a|] eqn:E.
    + destruct (woken a); [destruct (cond a (val y))|]; cbn.
      * split; [now rewrite Q, IV|]. intros p. specialize (IP p). rewrite upd_if, Nat.eqb_sym. destruct (Nat.eqb_spec q p) as [<-|]; [|exact IP]. cbn. rewrite ?Nat.eqb_refl. reflexivity.
      * split; [exact IV|]. intros p. specialize (IP p). rewrite upd_if, Nat.eqb_sym, andb_false_r. destruct (Nat.eqb_spec q p) as [<-|]; exact IP || exact Q.
      * split; [exact IV|]. intros p. rewrite andb_false_r. apply IP.
    + cbn. split; [exact IV|]. intros p. rewrite andb_false_r. apply IP.
Qed.
Lemma val_eq h : val (aft h) = value v0 h. Proof. apply value_ok. Qed.
Lemma waits_proc h p c g : waits v0 h p = Some (c, g) -> exists w, procs (aft h) p = Some (Pr w c g).
Proof. intros W. pose proof (proj2 (value_ok h) p) as H. destruct (procs (aft h) p) as [[w c' g']|]; [|congruence]. cbn in H. exists w. congruence. Qed.
Lemma proc_waits h p a : procs (aft h) p = Some a -> waits v0 h p = Some (cond a, next a).
Proof. intros W. pose proof (proj2 (value_ok h) p) as H. now rewrite W in H. Qed.
Lemma called h p a : procs (aft h) p = Some a -> In (Call p (cond a) (next a)) h.
Proof.
  revert p a. induction h as [|l h IH]; [discriminate|]. intros p a. cbn [after]. set (y := aft h) in *. destruct l as [f| |q c g|q]; cbn [step].
  - destruct (f (val y)) as [v []]; cbn; intros H; right; [|now apply IH]. destruct (procs y p) as [b|] eqn:E; [|discriminate]. injection H as <-. exact (IH _ _ E).
  - intros H. right. now apply IH.
  - destruct (procs y q) eqn:E; [intros H; right; now apply IH|]. destruct (c (val y)); cbn; [intros H; right; now apply IH|]. rewrite upd_if. destruct (Nat.eqb_spec p q) as [->|]; [|intros H; right; now apply IH]. intros [= <-]. now left.
  - destruct (procs y q) as [b|] eqn:E; [|intros H; right; now apply IH]. destruct (woken b); [|intros H; right; now apply IH]. destruct (cond b (val y)); cbn; rewrite upd_if; (destruct (Nat.eqb_spec p q) as [->|]; [|intros H; right; now apply IH]); [discriminate|]. intros [= <-]. cbn. right. exact (IH _ _ E).
Qed.
Lemma asleep h p a : procs (aft h) p = Some a -> (forall l, In l h -> announced (cond a) l) -> woken a = false -> cond a (val (aft h)) = false.
Proof.
  revert p a. induction h as [|l h IH]; [discriminate|]. intros p a. cbn [after]. set (y := aft h) in *. intros E N W.
  assert (N' : forall l, In l h -> announced (cond a) l) by (intros l' X; apply N; now right). pose proof (N l (or_introl eq_refl)) as Nl.
  destruct l as [f| |q c g|q]; cbn [step] in *.
  - cbn in Nl. specialize (Nl (val y)). destruct (f (val y)) as [v b]. destruct b; cbn in *.
    + destruct (procs y p) as [a'|]; [|discriminate]. injection E as <-. discriminate.
    + pose proof (IH _ _ E N' W) as F. destruct (cond a v) eqn:D; [|reflexivity]. discriminate (Nl F eq_refl).
  - exact (IH _ _ E N' W).
  - destruct (procs y q) eqn:Q; [exact (IH _ _ E N' W)|]. destruct (c (val y)) eqn:D; cbn in *.
    + apply Nl. exact (IH _ _ E N' W).
    + rewrite upd_if in E. destruct (Nat.eqb_spec p q) as [->|]; [|exact (IH _ _ E N' W)]. injection E as <-. exact D.
  - destruct (procs y q) as [b|] eqn:Q; [|exact (IH _ _ E N' W)]. destruct (woken b) eqn:Wb; [|exact (IH _ _ E N' W)]. destruct (cond b (val y)) eqn:D; cbn in *; rewrite upd_if in E; destruct (Nat.eqb_spec p q) as [->|].
    + discriminate.
    + pose proof (IH _ _ E N' W) as F. pose proof (N' _ (called h q b Q)) as G. cbn in G. now apply G.
    + injection E as <-. exact D.
    + exact (IH _ _ E N' W).
Qed.
Lemma stays_woken t h p c g : (forall l, In l t -> l <> Run p) -> procs (aft h) p = Some (Pr true c g) -> procs (aft (t ++ h)) p = Some (Pr true c g).
Proof.
  intros N H. induction t as [|l t IH]; [exact H|]. cbn [app after]. assert (IH' := IH (fun l' X => N l' (or_intror X))). pose proof (N l (or_introl eq_refl)) as Nl. clear IH N. set (y := aft (t ++ h)) in *.
  destruct l as [f| |q c' g'|q]; cbn [step].
  - destruct (f (val y)) as [v []]; cbn; [now rewrite IH'|exact IH'].
  - exact IH'.
  - destruct (procs y q) eqn:Q; [exact IH'|]. destruct (c' (val y)); cbn; [exact IH'|]. rewrite upd_neq; [exact IH'|]. congruence.
  - destruct (procs y q) as [b|] eqn:Q; [|exact IH']. destruct (woken b); [|exact IH']. destruct (cond b (val y)); cbn; (rewrite upd_neq; [exact IH'|congruence]).
Qed.
End Wait.

Section Resource.
Context {T : Type} (eqb : T -> T -> bool) (t0 : T).
Notation aft := (rafter eqb t0).
Record RInv (h : list (rlab T)) (y : st (res T)) : Prop := RINV {
  r_val : rval (val y) = content eqb t0 h;
  r_ro : ro (val y) = read_only h;
  r_mod : modified (val y) = fst (news eqb t0 h);
  r_wt : forall p, match procs y p with Some a => snd (news eqb t0 h) p = true /\ cond a = is_modified /\ next a = unmodify /\ (woken a = false -> modified (val y) = false) | None => snd (news eqb t0 h) p = false end
}.
Lemma rinv h : RInv h (aft h).
Proof.
  induction h as [|l h IH]; [constructor; reflexivity|]. change (aft (l :: h)) with (fst (step (aft h) (lab_of eqb l))). set (y := aft h) in *. clearbody y.
  destruct IH as [A B C D]. cbn [news]. destruct (news eqb t0 h) as [fresh wt] eqn:NW. cbn [fst snd] in *. destruct l as [t|b|p|p]; cbn [lab_of step].
  - unfold write. rewrite A, B. destruct (read_only h) eqn:R; [|destruct (eqb (content eqb t0 h) t) eqn:E]; cbn; constructor; cbn; rewrite ?NW; cbn; rewrite ?R, ?E; cbn; auto.
    intros p. specialize (D p). destruct (procs y p) as [a|]; cbn; [|exact D]. destruct D as (D1 & D2 & D3 & _). repeat split; auto. all: discriminate.
  - constructor; cbn; rewrite ?NW; cbn; auto.
  - pose proof (D p) as Dp. destruct (procs y p) as [a|] eqn:E.
    + destruct Dp as (Dp & _). constructor; cbn; rewrite ?NW, ?Dp; auto. all: exact D.
    + unfold is_modified at 1. rewrite C. destruct fresh; constructor; cbn; rewrite ?NW, ?Dp; cbn; auto.
      * intros q. specialize (D q). destruct (procs y q); [|exact D]. destruct D as (D1 & D2 & D3 & _). auto.
      * intros q. rewrite !upd_if. specialize (D q). destruct (Nat.eqb_spec q p) as [->|]; [|exact D]. cbn. auto.
  - pose proof (D p) as Dp. destruct (procs y p) as [a|] eqn:E.
    + destruct Dp as (Dp & C1 & C2 & Dw). rewrite C1, C2. destruct (woken a) eqn:W.
      * unfold is_modified at 1. rewrite C. destruct fresh; constructor; cbn; rewrite ?NW, ?Dp; cbn; auto.
        -- intros q. rewrite !upd_if. specialize (D q). destruct (Nat.eqb_spec q p) as [->|]; [reflexivity|]. destruct (procs y q); [|exact D]. destruct D as (D1 & D2 & D3 & _). auto.
        -- intros q. rewrite !upd_if. specialize (D q). destruct (Nat.eqb_spec q p) as [->|]; [|exact D]. cbn. auto.
      * destruct fresh; [specialize (Dw eq_refl); congruence|]. constructor; cbn; rewrite ?NW, ?Dp; cbn; auto.
    + constructor; cbn; rewrite ?NW, ?Dp; cbn; auto.
Qed.
Lemma rsays_eq h l : rsays eqb t0 h l = returns eqb t0 h l.
Proof.
  unfold rsays, returns. pose proof (rinv h) as [A B C D]. destruct (news eqb t0 h) as [fresh wt]. cbn [fst snd] in *. set (y := aft h) in *. clearbody y. destruct l as [t|b|p|p]; cbn [lab_of step].
  - destruct (write eqb t (val y)). reflexivity.
  - reflexivity.
  - specialize (D p). destruct (procs y p) as [a|]; [destruct D as (-> & _); reflexivity|]. unfold is_modified. rewrite C, D. now destruct fresh.
  - specialize (D p). destruct (procs y p) as [a|]; [|now rewrite D]. destruct D as (-> & C1 & C2 & D). destruct (woken a).
    + rewrite C1. unfold is_modified. rewrite C. now destruct fresh.
    + rewrite <- C, D by reflexivity. reflexivity.
Qed.
Fixpoint n_returns (h : list (rlab T)) : nat := match h with [] => 0 | l :: h => List.length (returns eqb t0 h l) + n_returns h end.
Lemma count h : n_returns h + (if fst (news eqb t0 h) then 1 else 0) <= n_changes eqb t0 h.
Proof.
  induction h as [|l h IH]; [cbn; lia|]. cbn [n_returns n_changes news]. unfold returns. destruct (news eqb t0 h) as [fresh wt]. cbn [fst] in IH.
  destruct l as [t|b|p|p].
  - destruct (changes eqb t0 h (Write t)); cbn; destruct fresh; cbn; lia.
  - cbn. destruct fresh; lia.
  - destruct (wt p), fresh; cbn in *; lia.
  - destruct (wt p), fresh; cbn in *; lia.
Qed.
(** After a return nobody returns before the next change *)
Lemma quiet t h l : returns eqb t0 h l <> [] -> (forall t1 l' t2, t = t1 ++ l' :: t2 -> changes eqb t0 (t2 ++ l :: h) l' = false) -> fst (news eqb t0 (t ++ l :: h)) = false.
Proof.
  intros R. induction t as [|l' t IH]; intros N.
  - cbn [app news]. unfold returns in R. destruct (news eqb t0 h) as [fresh wt]. destruct l as [t|b|p|p]; try congruence; destruct (wt p), fresh; cbn in *; congruence.
  - assert (N' : changes eqb t0 (t ++ l :: h) l' = false) by (apply (N []); reflexivity).
    assert (IH' : fst (news eqb t0 (t ++ l :: h)) = false) by (apply IH; intros t1 a t2 E; apply (N (l' :: t1)); now rewrite E).
    cbn [app news]. destruct (news eqb t0 (t ++ l :: h)) as [fresh wt]. cbn [fst] in IH'. subst fresh. destruct l' as [x|b|p|p].
    + rewrite N'. reflexivity.
    + rewrite N'. reflexivity.
    + destruct (wt p); reflexivity.
    + rewrite andb_false_r. reflexivity.
Qed.
End Resource.
