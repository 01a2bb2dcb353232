(** Proofs about the ids of sequences and items. *)
From Coq Require Import ZArith List Bool Arith Lia.
From Verif Require Import Prelude IdsModel IdsSpec.
Import ListNotations.
Local Open Scope nat_scope.

(** *** The registrations in order, the newest first; the id is the position *)
Definition trip := (nat * nat * nat)%type.
Definition teqb (a b : trip) : bool := let '(x, y, z) := a in let '(u, v, w) := b in (x =? u) && (y =? v) && (z =? w).
Lemma teqb_spec a b : reflect (a = b) (teqb a b).
Proof.
  destruct a as [[x y] z], b as [[u v] w]. unfold teqb. destruct (Nat.eqb_spec x u), (Nat.eqb_spec y v), (Nat.eqb_spec z w); cbn; constructor; congruence.
Qed.
Fixpoint idof (k : list trip) (t : trip) : option nat := match k with [] => None | u :: k' => if teqb t u then Some (length k) else idof k' t end.
Definition has (k : list trip) (t : trip) : bool := existsb (teqb t) k.
Fixpoint known (h : list lab) : list trip :=
  match h with
  | [] => []
  | Start q (Some s) :: h' => if running h' q then known h' else (q, s, runs h q) :: known h'
  | Ask q s :: h' => if has (known h') (q, s, runs h' q) then known h' else (q, s, runs h' q) :: known h'
  | _ :: h => known h
  end.
Lemma has_in k t : has k t = true <-> In t k.
Proof.
  unfold has. rewrite existsb_exists. split; [intros (u & H & E); destruct (teqb_spec t u); [now subst|discriminate]|]. intros H. exists t. split; [exact H|]. now destruct (teqb_spec t t).
Qed.
Lemma idof_none k t : idof k t = None <-> ~ In t k.
Proof.
  induction k as [|u k IH]; cbn; [tauto|]. destruct (teqb_spec t u) as [->|N]; [split; [discriminate|tauto]|]. rewrite IH. split; [intros H [E|E]; [now symmetry in E|tauto]|tauto].
Qed.
Lemma idof_le k t i : idof k t = Some i -> 1 <= i <= length k.
Proof. induction k as [|u k IH]; cbn; [discriminate|]. destruct (teqb t u); [intros [= <-]; lia|]. intros H. apply IH in H. lia. Qed.
Lemma idof_inj k t u i : idof k t = Some i -> idof k u = Some i -> t = u.
Proof.
  induction k as [|v k IH]; cbn; [discriminate|]. destruct (teqb_spec t v) as [->|Nt], (teqb_spec u v) as [->|Nu]; auto.
  - intros [= <-] H. apply idof_le in H. lia.
  - intros H [= <-]. apply idof_le in H. lia.
Qed.
Lemma idof_in k t : In t k <-> exists i, idof k t = Some i.
Proof. destruct (idof k t) eqn:E; [split; [eauto|intros _]|split; [intros H; apply idof_none in E; tauto|intros [i H]; discriminate]]. destruct (in_dec (fun a b => match teqb_spec a b with ReflectT _ e => left e | ReflectF _ n => right n end) t k) as [H|H]; [exact H|]. apply idof_none in H. congruence. Qed.
Lemma idof_cons k t u i : ~ In u k -> idof k t = Some i -> idof (u :: k) t = Some i.
Proof. intros N H. cbn. destruct (teqb_spec t u) as [->|_]; [|exact H]. exfalso. apply N, idof_in. eauto. Qed.
Lemma idof_new k u : idof (u :: k) u = Some (S (length k)).
Proof. cbn. now destruct (teqb_spec u u). Qed.

(** *** The specification *)
Lemma known_talks h q s r : In (q, s, r) (known h) <-> talks h q s r.
Proof.
  induction h as [|l h IH]; [reflexivity|]. destruct l as [p [s'|]|p s'|p|p s' x|p|p|y x|x t|s' x]; cbn [known talks]; try exact IH.
  - destruct (running h p) eqn:E.
    + rewrite IH. split; [tauto|]. intros [(-> & H & _)|H]; [congruence|exact H].
    + cbn [In]. rewrite IH. split.
      * intros [[= -> -> <-]|H]; [left; repeat split; auto|tauto].
      * intros [(-> & _ & [= ->] & ->)|H]; [now left|tauto].
  - rewrite IH. split; [tauto|]. intros [(_ & _ & H & _)|H]; [discriminate|exact H].
  - cbn [runs]. destruct (has (known h) (p, s', runs h p)) eqn:E.
    + apply has_in in E. rewrite IH. split; [tauto|]. intros [(-> & -> & ->)|H]; [now apply IH|exact H].
    + cbn [In]. rewrite IH. split; [intros [[= -> -> <-]|H]; [left; auto|tauto]|intros [(-> & -> & ->)|H]; [now left|tauto]].
Qed.
Lemma runs_le h : forall l q, runs h q <= runs (l :: h) q.
Proof. intros [p s|p s|p|p s x|p|p|y x|x t|s x] q; cbn [runs]; try lia. destruct (_ && _); lia. Qed.
Lemma known_le h q s r : In (q, s, r) (known h) -> r <= runs h q.
Proof.
  induction h as [|l h IH]; [intros []|]. pose proof (runs_le h l q) as R. destruct l as [p [s'|]|p s'|p|p s' x|p|p|y x|x t|s' x]; cbn [known]; try (intros H; apply IH in H; lia).
  - destruct (running h p); [intros H; apply IH in H; lia|]. intros [[= -> -> <-]|H]; [apply Nat.le_refl|apply IH in H; lia].
  - destruct (has _ _); [intros H; apply IH in H; lia|]. intros [[= -> -> <-]|H]; [exact R|apply IH in H; lia].
Qed.
Lemma start_new h q s : running h q = false -> ~ In (q, s, runs (Start q (Some s) :: h) q) (known h).
Proof. intros E H. apply known_le in H. cbn [runs] in H. rewrite Nat.eqb_refl, E in H. cbn in H. lia. Qed.
Lemma from_talks h : forall x q s r, from h x q s r -> talks h q s r.
Proof.
  induction h as [|l h IH]; [intros x q s r []|]. intros x q s r. destruct l as [p [s'|]|p s'|p|p s' z|p|p|z w|z t|s' z]; cbn [from talks]; intros H; try (right; now apply (IH x)); try (now apply (IH x)).
  - destruct (_ && _); [destruct H as (_ & _ & _ & H); exact H|now apply (IH x)].
  - destruct (z =? x); [now apply (IH w)|now apply (IH x)].
Qed.
Lemma from_fun h : forall x q s r q' s' r', from h x q s r -> from h x q' s' r' -> (q, s, r) = (q', s', r').
Proof.
  induction h as [|l h IH]; [intros x q s r q' s' r' []|]. intros x q s r q' s' r'. destruct l as [p [u|]|p u|p|p u z|p|p|z w|z t|u z]; cbn [from]; try apply IH.
  - destruct (_ && _); [|apply IH]. intros (<- & <- & -> & _) (<- & <- & -> & _). reflexivity.
  - destruct (z =? x); apply IH.
Qed.
Lemma left_talks h : forall q s r, left_ h q s r -> talks h q s r.
Proof.
  induction h as [|l h IH]; [intros q s r []|]. intros q s r. destruct l as [p [s'|]|p s'|p|p s' z|p|p|z w|z t|s' z]; cbn [left_ talks]; intros H; try (right; now apply IH); try (now apply IH).
  destruct H as [(_ & _ & _ & _ & H)|H]; [exact H|now apply IH].
Qed.
Lemma left_dec h q s r : ~ ~ left_ h q s r -> left_ h q s r.
Proof.
  induction h as [|l h IH]; [cbn; tauto|]. destruct l as [p u|p u|p|p u x|p|p|y x|x t|u x]; cbn [left_]; try exact IH. intros H.
  destruct (Nat.eq_dec p q) as [->|N]; [|right; apply IH; tauto]. destruct (Nat.eq_dec (leaving h q) 0) as [E|E]; [right; apply IH; tauto|].
  destruct (home_of h q) as [v|]; [|right; apply IH; intros X; apply H; intros [(_ & _ & Y & _)|Y]; [discriminate|tauto]].
  destruct (Nat.eq_dec v s) as [->|Nv]; [|right; apply IH; intros X; apply H; intros [(_ & _ & Y & _)|Y]; [congruence|tauto]].
  destruct (Nat.eq_dec r (runs h q)) as [->|Nr]; [|right; apply IH; tauto].
  assert (T : talks h q s (runs h q) \/ ~ talks h q s (runs h q)).
  { rewrite <- known_talks, idof_in. destruct (idof (known h) (q, s, runs h q)) as [i|]; [left; eauto|right; intros [i X]; discriminate]. }
  destruct T as [T|T]; [left; auto|right; apply IH; tauto].
Qed.

(** *** The invariant *)
Record J (k : list trip) (rn : nat -> nat) (F : nat -> trip -> Prop) (L : trip -> Prop) (y : st) : Prop := JJ {
  j_gid : gid y = S (length k);
  j_ids : forall q s, ids (seqs y q) s = idof k (q, s, rn q);
  j_sid : forall x i, sid (items y x) = Some i <-> exists t, F x t /\ idof k t = Some i;
  j_reg : forall s i q, regs y s i = Some q <-> exists r, idof k (q, s, r) = Some i /\ ~ L (q, s, r)
}.
Lemma J_ext k rn rn' F F' (L L' : trip -> Prop) y : J k rn F L y -> (forall q, rn q = rn' q) -> (forall x t, F x t <-> F' x t) -> (forall t, L t <-> L' t) -> J k rn' F' L' y.
Proof.
  intros [G I K R] E1 E2 E3. constructor.
  - exact G.
  - intros q s. rewrite I, E1. reflexivity.
  - intros x i. rewrite K. split; intros (t & A & B); exists t; (split; [now apply E2|exact B]).
  - intros s i q. rewrite R. split; intros (r & A & B); exists r; (split; [exact A|now rewrite E3 in *]).
Qed.
(** Only the shape of sequences that ids do not depend on changes *)
Lemma J_seqs k rn F L y y' : J k rn F L y -> gid y' = gid y -> (forall q s, ids (seqs y' q) s = ids (seqs y q) s) -> (forall x, sid (items y' x) = sid (items y x)) -> (forall s i, regs y' s i = regs y s i) -> J k rn F L y'.
Proof.
  intros [G I K R] E1 E2 E3 E4. constructor.
  - congruence.
  - intros q s. rewrite E2. apply I.
  - intros x i. rewrite E3. apply K.
  - intros s i q. rewrite E4. apply R.
Qed.
Lemma upd_if {A} (f : nat -> A) i v j : upd f i v j = if j =? i then v else f j.
Proof. destruct (Nat.eqb_spec j i) as [->|N]; [apply upd_eq|now apply upd_neq]. Qed.
Lemma register_same y q s p : let a := seqs (register y q s) p in let b := seqs y p in busy a = busy b /\ home a = home b /\ sem a = sem b /\ fin a = fin b /\ nxt a = nxt b.
Proof.
  cbn zeta. unfold register, get_id. destruct (ids (seqs y q) s) eqn:E; cbn; rewrite ?upd_if; destruct (Nat.eqb_spec p q) as [->|]; rewrite ?Nat.eqb_refl; cbn; repeat split.
Qed.
Lemma register_items y q s : items (register y q s) = items y.
Proof. unfold register, get_id. destruct (ids (seqs y q) s); reflexivity. Qed.
Lemma register_J k rn F L y q s : J k rn F L y -> (forall t, L t -> In t k) -> (forall x t, F x t -> In t k) ->
  J (if has k (q, s, rn q) then k else (q, s, rn q) :: k) rn F L (register y q s).
Proof.
  intros HJ HL HF. pose proof HJ as [G I K R]. unfold register, get_id. destruct (ids (seqs y q) s) as [i|] eqn:E; rewrite I in E.
  - assert (H : has k (q, s, rn q) = true) by (apply has_in, idof_in; eauto). rewrite H.
    apply (J_seqs k rn F L y); try reflexivity; try exact HJ. intros p u. cbn. rewrite upd_if. destruct (Nat.eqb_spec p q) as [->|]; reflexivity.
  - pose proof (proj1 (idof_none _ _) E) as N. assert (H : has k (q, s, rn q) = false).
    { destruct (has k (q, s, rn q)) eqn:Q; [|reflexivity]. apply has_in in Q. tauto. } rewrite H.
    set (t0 := (q, s, rn q)) in *. cbn [gid set_seq set_id seqs regs items fst snd]. rewrite G. constructor; cbn [gid seqs regs items].
    + cbn. lia.
    + intros p u. rewrite !upd_if. destruct (Nat.eqb_spec p q) as [->|Np].
      * rewrite ?Nat.eqb_refl. cbn [ids with_cur]. rewrite ?upd_if, ?Nat.eqb_refl. cbn [ids with_cur]. rewrite ?upd_if. destruct (Nat.eqb_spec u s) as [->|Nu].
        -- fold t0. symmetry. apply idof_new.
        -- rewrite I. cbn [idof]. unfold t0. destruct (teqb_spec (q, u, rn q) (q, s, rn q)) as [Q|_]; [congruence|reflexivity].
      * rewrite I. cbn [idof]. destruct (teqb_spec (p, u, rn p) t0) as [Q|_]; [unfold t0 in Q; congruence|reflexivity].
    + intros x i. rewrite K. split.
      * intros (t & A & B). exists t. split; [exact A|]. now apply idof_cons.
      * intros (t & A & B). exists t. split; [exact A|]. pose proof (HF x t A) as C. apply idof_in in C. destruct C as [j C]. assert (Q : Some i = Some j) by (rewrite <- B; exact (idof_cons _ _ t0 _ N C)). congruence.
    + intros u i p. rewrite upd_if. destruct (Nat.eqb_spec u s) as [->|Nu]; [rewrite upd_if; destruct (Nat.eqb_spec i (S (length k))) as [->|Ni]|].
      * split.
        -- intros [= <-]. exists (rn q). fold t0. split; [apply idof_new|]. intros X. apply N, HL, X.
        -- intros (r & A & B). f_equal. pose proof (idof_inj _ _ _ _ A (idof_new k t0)) as X. unfold t0 in X. congruence.
      * rewrite R. split; intros (r & A & B); exists r; (split; [|exact B]).
        -- now apply idof_cons.
        -- cbn [idof] in A. destruct (teqb_spec (p, s, r) t0) as [_|_]; [cbn in A; congruence|exact A].
      * rewrite R. split; intros (r & A & B); exists r; (split; [|exact B]).
        -- now apply idof_cons.
        -- cbn [idof] in A. destruct (teqb_spec (p, u, r) t0) as [X|_]; [unfold t0 in X; congruence|exact A].
Qed.

Definition Fh (h : list lab) (x : nat) (t : trip) : Prop := let '(q, s, r) := t in from h x q s r.
Definition Lh (h : list lab) (t : trip) : Prop := let '(q, s, r) := t in left_ h q s r.
Record Inv (h : list lab) (y : st) : Prop := INV {
  i_busy : forall q, busy (seqs y q) = running h q;
  i_home : forall q, home (seqs y q) = home_of h q;
  i_sem : forall q, sem (seqs y q) = grants h q;
  i_fin : forall q, fin (seqs y q) = leaving h q;
  i_J : J (known h) (runs h) (Fh h) (Lh h) y
}.
Lemma Fh_in h x t : Fh h x t -> In t (known h).
Proof. destruct t as [[q s] r]. cbn. intros H. apply known_talks. now apply (from_talks h x). Qed.
Lemma Lh_in h t : Lh h t -> In t (known h).
Proof. destruct t as [[q s] r]. cbn. intros H. apply known_talks. now apply left_talks. Qed.

Ltac same := let q := fresh "q" in intros q; cbn; rewrite ?upd_if; match goal with |- context [?a =? ?b] => destruct (Nat.eqb_spec a b); try subst | _ => idtac end; cbn; auto.
Lemma inv_start h y q s : Inv h y -> Inv (Start q s :: h) (fst (step y (Start q s))).
Proof.
  intros [B H M Fi HJ]. cbn [step]. rewrite B. destruct (running h q) eqn:E; cbn [fst].
  - assert (RN : forall p, runs (Start q s :: h) p = runs h p).
    { intros p. cbn [runs]. destruct (Nat.eqb_spec q p) as [<-|]; [now rewrite E|reflexivity]. }
    constructor.
    + intros p. cbn. rewrite upd_if, (Nat.eqb_sym p q). destruct (Nat.eqb_spec q p); [reflexivity|apply B].
    + intros p. cbn. rewrite upd_if, (Nat.eqb_sym p q). destruct (Nat.eqb_spec q p); [reflexivity|apply H].
    + intros p. cbn. rewrite upd_if. destruct (Nat.eqb_spec p q) as [->|]; apply M.
    + intros p. cbn. rewrite upd_if. destruct (Nat.eqb_spec p q) as [->|]; apply Fi.
    + apply (J_ext _ (runs h) _ (Fh h) _ (Lh h)); [|intros p; symmetry; apply RN|intros x [[a b] c]; reflexivity|intros [[a b] c]; reflexivity].
      replace (known (Start q s :: h)) with (known h) by (cbn [known]; destruct s; [now rewrite E|reflexivity]).
      apply (J_seqs _ _ _ _ y); try reflexivity; [exact HJ|]. intros p u. cbn. rewrite upd_if. destruct (Nat.eqb_spec p q) as [->|]; reflexivity.
  - set (y1 := set_seq y q _).
    assert (RN : forall p, runs (Start q s :: h) p = if p =? q then S (runs h q) else runs h p).
    { intros p. cbn [runs]. rewrite (Nat.eqb_sym p q). destruct (Nat.eqb_spec q p) as [<-|]; [now rewrite E|reflexivity]. }
    assert (J1 : J (known h) (runs (Start q s :: h)) (Fh h) (Lh h) y1).
    { destruct HJ as [G I K R]. constructor; try assumption. intros p u. rewrite RN. cbn. rewrite upd_if. destruct (Nat.eqb_spec p q) as [->|]; [|apply I].
      cbn. symmetry. apply idof_none. intros X. apply known_le in X. lia. }
    assert (X : busy (seqs y1 q) = true /\ home (seqs y1 q) = s /\ sem (seqs y1 q) = sem (seqs y q) /\ fin (seqs y1 q) = fin (seqs y q)) by (cbn; rewrite upd_eq; auto).
    assert (X' : forall p, p <> q -> seqs y1 p = seqs y p) by (intros p Np; cbn; now apply upd_neq).
    clearbody y1.
    assert (Z : forall y2, (forall p, busy (seqs y2 p) = busy (seqs y1 p) /\ home (seqs y2 p) = home (seqs y1 p) /\ sem (seqs y2 p) = sem (seqs y1 p) /\ fin (seqs y2 p) = fin (seqs y1 p)) ->
      J (known (Start q s :: h)) (runs (Start q s :: h)) (Fh h) (Lh h) y2 -> Inv (Start q s :: h) y2).
    { intros y2 Y HJ2. destruct X as (X1 & X2 & X3 & X4). constructor.
      - intros p. cbn. destruct (Y p) as (Y1 & _). rewrite Y1. destruct (Nat.eqb_spec q p) as [<-|Np]; [exact X1|]. rewrite X' by congruence. apply B.
      - intros p. cbn. destruct (Y p) as (_ & Y1 & _). rewrite Y1. destruct (Nat.eqb_spec q p) as [<-|Np]; [exact X2|]. rewrite X' by congruence. apply H.
      - intros p. cbn. destruct (Y p) as (_ & _ & Y1 & _). rewrite Y1. destruct (Nat.eq_dec p q) as [->|Np]; [rewrite X3|rewrite X' by exact Np]; apply M.
      - intros p. cbn. destruct (Y p) as (_ & _ & _ & Y1). rewrite Y1. destruct (Nat.eq_dec p q) as [->|Np]; [rewrite X4|rewrite X' by exact Np]; apply Fi.
      - exact HJ2. }
    destruct s as [s|].
    + apply Z.
      * intros p. pose proof (register_same y1 q s p) as Q. cbn zeta in Q. tauto.
      * pose proof (register_J _ _ _ _ _ q s J1 (Lh_in h) (Fh_in h)) as Q. cbn [known]. rewrite E.
        destruct (has (known h) (q, s, runs (Start q (Some s) :: h) q)) eqn:D; [|exact Q]. apply has_in in D. exfalso. now apply (start_new h q s E).
    + apply Z; [auto|exact J1].
Qed.
Lemma inv_ask h y q s : Inv h y -> Inv (Ask q s :: h) (fst (step y (Ask q s))).
Proof.
  intros [B H M Fi HJ]. cbn [step fst].
  assert (Q := fun p => register_same y q s p). cbn zeta in Q. constructor.
  - intros p. cbn. rewrite <- B. apply Q.
  - intros p. cbn. rewrite <- H. apply Q.
  - intros p. cbn. rewrite <- M. apply Q.
  - intros p. cbn. rewrite <- Fi. apply Q.
  - apply (register_J _ _ _ _ _ q s HJ (Lh_in h) (Fh_in h)).
Qed.
Lemma inv_granted h y q : Inv h y -> Inv (Granted q :: h) (fst (step y (Granted q))).
Proof.
  intros [B H M Fi HJ]. cbn [step fst]. constructor.
  - intros p. cbn. rewrite upd_if. destruct (Nat.eqb_spec p q) as [->|]; apply B.
  - intros p. cbn. rewrite upd_if. destruct (Nat.eqb_spec p q) as [->|]; apply H.
  - intros p. cbn. rewrite upd_if, (Nat.eqb_sym p q). destruct (Nat.eqb_spec q p) as [->|]; [cbn; now rewrite M|apply M].
  - intros p. cbn. rewrite upd_if. destruct (Nat.eqb_spec p q) as [->|]; apply Fi.
  - apply (J_seqs _ _ _ _ y); try reflexivity; [exact HJ|]. intros p u. cbn. rewrite upd_if. destruct (Nat.eqb_spec p q) as [->|]; reflexivity.
Qed.
Lemma inv_finish h y q : Inv h y -> Inv (Finish q :: h) (fst (step y (Finish q))).
Proof.
  intros [B H M Fi HJ]. cbn [step]. rewrite B. destruct (running h q) eqn:E; cbn [fst]; constructor.
  - intros p. cbn. rewrite upd_if, (Nat.eqb_sym p q). destruct (Nat.eqb_spec q p) as [->|]; [reflexivity|apply B].
  - intros p. cbn. rewrite upd_if. destruct (Nat.eqb_spec p q) as [->|]; apply H.
  - intros p. cbn. rewrite upd_if. destruct (Nat.eqb_spec p q) as [->|]; apply M.
  - intros p. cbn. rewrite upd_if, (Nat.eqb_sym p q). destruct (Nat.eqb_spec q p) as [<-|]; [cbn; now rewrite Fi, E|apply Fi].
  - apply (J_seqs _ _ _ _ y); try reflexivity; [exact HJ|]. intros p u. cbn. rewrite upd_if. destruct (Nat.eqb_spec p q) as [->|]; reflexivity.
  - intros p. cbn. rewrite B. destruct (Nat.eqb_spec q p) as [<-|]; [now rewrite E|reflexivity].
  - exact H.
  - exact M.
  - intros p. cbn. rewrite Fi. destruct (Nat.eqb_spec q p) as [<-|]; [now rewrite E|reflexivity].
  - exact HJ.
Qed.
Lemma inv_leave h y q : Inv h y -> Inv (Leave q :: h) (fst (step y (Leave q))).
Proof.
  intros [B H M Fi HJ]. cbn [step]. rewrite Fi, H. destruct (leaving h q) as [|n] eqn:E; cbn [fst].
  - constructor; [exact B|exact H|exact M| |].
    + intros p. cbn. rewrite Fi. destruct (Nat.eqb_spec q p) as [<-|]; [now rewrite E|reflexivity].
    + apply (J_ext _ (runs h) _ (Fh h) _ (Lh h)); try reflexivity; [exact HJ|]. intros [[a b] c]. cbn. split; [tauto|]. intros [(<- & X & _)|X]; [congruence|exact X].
  - set (y1 := set_seq y q _).
    assert (P : forall p, busy (seqs y1 p) = busy (seqs y p) /\ home (seqs y1 p) = home (seqs y p) /\ sem (seqs y1 p) = sem (seqs y p) /\ fin (seqs y1 p) = if p =? q then n else fin (seqs y p)).
    { intros p. cbn. rewrite upd_if. destruct (Nat.eqb_spec p q) as [->|]; cbn; rewrite ?H; auto. }
    assert (J1 : J (known h) (runs h) (Fh h) (Lh h) y1).
    { apply (J_seqs _ _ _ _ y); try reflexivity; [exact HJ|]. intros p u. cbn. rewrite upd_if. destruct (Nat.eqb_spec p q) as [->|]; reflexivity. }
    clearbody y1.
    assert (Z : forall y2, (forall p, busy (seqs y2 p) = busy (seqs y1 p) /\ home (seqs y2 p) = home (seqs y1 p) /\ sem (seqs y2 p) = sem (seqs y1 p) /\ fin (seqs y2 p) = fin (seqs y1 p)) ->
      J (known h) (runs h) (Fh h) (Lh (Leave q :: h)) y2 -> Inv (Leave q :: h) y2).
    { intros y2 Y HJ2. constructor.
      - intros p. cbn. rewrite <- B. destruct (P p) as (<- & _). apply Y.
      - intros p. cbn. rewrite <- H. destruct (P p) as (_ & <- & _). apply Y.
      - intros p. cbn. rewrite <- M. destruct (P p) as (_ & _ & <- & _). apply Y.
      - intros p. cbn. destruct (Y p) as (_ & _ & _ & ->). destruct (P p) as (_ & _ & _ & ->). rewrite (Nat.eqb_sym q p). destruct (Nat.eqb_spec p q) as [->|]; [now rewrite E|apply Fi].
      - exact HJ2. }
    destruct (home_of h q) as [s|] eqn:D.
    + unfold get_id. cbn [fst]. set (i := ids (seqs y1 q) s). assert (Hi : i = idof (known h) (q, s, runs h q)) by apply (j_ids _ _ _ _ _ J1).
      assert (J2 : forall c, J (known h) (runs h) (Fh h) (Lh h) (set_seq y1 q (with_cur (seqs y1 q) c))).
      { intros c. apply (J_seqs _ _ _ _ y1); try reflexivity; [exact J1|]. intros p u. cbn. rewrite upd_if. destruct (Nat.eqb_spec p q) as [->|]; reflexivity. }
      assert (LE : forall t, Lh (Leave q :: h) t <-> (t = (q, s, runs h q) /\ In t (known h)) \/ Lh h t).
      { intros [[a b] c]. cbn. rewrite known_talks. split.
        - intros [(<- & _ & X & -> & Y)|X]; [left|now right]. assert (b = s) by congruence. subst b. auto.
        - intros [([= -> -> ->] & Y)|X]; [left|now right]. repeat split; auto. congruence. }
      specialize (J2 i). clearbody i. apply Z.
      * intros p. destruct i; cbn; rewrite upd_if; destruct (Nat.eqb_spec p q) as [->|]; cbn; auto.
      * destruct i as [i|].
        -- destruct J2 as [G I K R]. constructor; [exact G|exact I|exact K|]. intros u j p. cbn [unregister regs]. rewrite upd_if.
           assert (O : forall r, idof (known h) (p, u, r) = Some j -> (p, u, r) <> (q, s, runs h q) -> (~ Lh (Leave q :: h) (p, u, r) <-> ~ Lh h (p, u, r))).
           { intros r _ X. rewrite LE. tauto. }
           destruct (Nat.eqb_spec u s) as [->|Nu]; [rewrite upd_if; destruct (Nat.eqb_spec j i) as [->|Nj]|].
           ++ split; [discriminate|]. intros (r & X & Y). exfalso. apply Y, LE. left. split; [exact (idof_inj _ _ _ _ X (eq_sym Hi))|apply idof_in; eauto].
           ++ rewrite R. split; intros (r & X & Y); exists r; (split; [exact X|]); (apply (O r X); [|exact Y]); intros Q; rewrite Q in X; congruence.
           ++ rewrite R. split; intros (r & X & Y); exists r; (split; [exact X|]); (apply (O r X); [|exact Y]); congruence.
        -- cbn [unregister]. apply (J_ext _ (runs h) _ (Fh h) _ (Lh h)); try reflexivity; [exact J2|]. intros t. rewrite LE. split; [tauto|]. intros [(-> & X)|X]; [|exact X]. symmetry in Hi. apply idof_none in Hi. tauto.
    + apply Z; [auto|]. apply (J_ext _ (runs h) _ (Fh h) _ (Lh h)); try reflexivity; [exact J1|]. intros [[a b] c]. cbn. split; [tauto|]. intros [(<- & _ & X & _)|X]; [congruence|exact X].
Qed.
Lemma inv_send h y q s x : Inv h y -> Inv (Send q s x :: h) (fst (step y (Send q s x))).
Proof.
  intros [B H M Fi HJ]. cbn [step]. rewrite M. destruct (grants h q) as [|n] eqn:E; cbn [fst].
  - constructor; [exact B|exact H| |exact Fi|].
    + intros p. cbn. rewrite M. destruct (Nat.eqb_spec q p) as [<-|]; [now rewrite E|reflexivity].
    + apply (J_ext _ (runs h) _ (Fh h) _ (Lh h)); try reflexivity; [exact HJ|]. intros z [[a b] c]. cbn. rewrite E. cbn. rewrite andb_false_r. reflexivity.
  - destruct (match tid (items y x) with Some _ => _ | None => _ end) as [t nx]. unfold get_id. cbn [fst]. constructor.
    + intros p. cbn. rewrite !upd_if. destruct (Nat.eqb_spec p q) as [->|]; [|apply B]. rewrite Nat.eqb_refl. apply B.
    + intros p. cbn. rewrite !upd_if. destruct (Nat.eqb_spec p q) as [->|]; [|apply H]. rewrite Nat.eqb_refl. apply H.
    + intros p. cbn. rewrite !upd_if, (Nat.eqb_sym q p). destruct (Nat.eqb_spec p q) as [->|]; [|apply M]. rewrite Nat.eqb_refl, E. reflexivity.
    + intros p. cbn. rewrite !upd_if. destruct (Nat.eqb_spec p q) as [->|]; [|apply Fi]. rewrite Nat.eqb_refl. apply Fi.
    + destruct HJ as [G I K R]. constructor; [exact G| | |exact R].
      * intros p u. cbn. rewrite !upd_if. destruct (Nat.eqb_spec p q) as [->|]; [|apply I]. rewrite Nat.eqb_refl. apply I.
      * intros z i. cbn [items set_item set_seq seqs]. rewrite !upd_if. destruct (Nat.eqb_spec z x) as [->|Nz].
        -- rewrite Nat.eqb_refl. cbn [sid ids known]. rewrite I. split.
           ++ intros X. exists (q, s, runs h q). split; [|exact X]. cbn. rewrite Nat.eqb_refl, E. cbn. repeat split; auto. apply known_talks, idof_in. eauto.
           ++ intros ([[a b] c] & X & Y). cbn in X. rewrite Nat.eqb_refl, E in X. cbn in X. destruct X as (<- & <- & -> & _). exact Y.
        -- rewrite K. cbn [known]. split; intros ([[a b] c] & X & Y); exists (a, b, c); (split; [|exact Y]); cbn in *; destruct (Nat.eqb_spec x z); cbn in *; congruence || exact X.
Qed.
Lemma inv_info h y z x : Inv h y -> Inv (Info z x :: h) (fst (step y (Info z x))).
Proof.
  intros [B H M Fi [G I K R]]. cbn [step fst]. constructor; [exact B|exact H|exact M|exact Fi|]. constructor; [exact G|exact I| |exact R].
  intros w i. cbn [items set_item]. rewrite upd_if. destruct (Nat.eqb_spec w z) as [->|Nw].
  - rewrite K. cbn [known]. split; intros ([[a b] c] & X & Y); exists (a, b, c); (split; [|exact Y]); cbn in *; rewrite Nat.eqb_refl in *; exact X.
  - rewrite K. cbn [known]. split; intros ([[a b] c] & X & Y); exists (a, b, c); (split; [|exact Y]); cbn in *; destruct (Nat.eqb_spec z w); congruence || exact X.
Qed.
Lemma inv_settid h y x t : Inv h y -> Inv (SetTid x t :: h) (fst (step y (SetTid x t))).
Proof.
  intros [B H M Fi HJ]. cbn [step fst]. constructor; [exact B|exact H|exact M|exact Fi|].
  apply (J_seqs _ _ _ _ y); try reflexivity; [exact HJ|]. intros z. cbn. rewrite upd_if. destruct (Nat.eqb_spec z x) as [->|]; reflexivity.
Qed.
Lemma inv_put h y s x : Inv h y -> Inv (Put s x :: h) (fst (step y (Put s x))).
Proof. intros [B H M Fi HJ]. cbn [step]. destruct (sid (items y x)); cbn [fst]; constructor; assumption. Qed.
Theorem after_inv h : Inv h (after h).
Proof.
  induction h as [|l h IH].
  - constructor; try reflexivity. constructor; try reflexivity; cbn.
    + intros x i. split; [discriminate|]. intros (t & _ & X). discriminate.
    + intros s i q. split; [discriminate|]. intros (r & X & _). discriminate.
  - cbn [after]. destruct l.
    + now apply inv_start.
    + now apply inv_ask.
    + now apply inv_granted.
    + now apply inv_send.
    + now apply inv_finish.
    + now apply inv_leave.
    + now apply inv_info.
    + now apply inv_settid.
    + now apply inv_put.
Qed.

(** *** Responses *)
Lemma sid_some h x i : sid (items (after h) x) = Some i <-> exists q s r, from h x q s r /\ idof (known h) (q, s, r) = Some i.
Proof.
  rewrite (j_sid _ _ _ _ _ (i_J _ _ (after_inv h))). split; [intros ([[q s] r] & X & Y); eauto 6|intros (q & s & r & X & Y); exists (q, s, r); auto].
Qed.
Lemma sid_from h x q s r : from h x q s r -> exists i, sid (items (after h) x) = Some i /\ idof (known h) (q, s, r) = Some i.
Proof.
  intros H. pose proof (from_talks _ _ _ _ _ H) as T. apply known_talks, idof_in in T. destruct T as [i T]. exists i. split; [|exact T]. apply sid_some. eauto 6.
Qed.
Lemma put_none h s x : (forall q u r, ~ from h x q u r) -> says h (Put s x) = [OFatal].
Proof.
  intros N. unfold says. cbn [step]. destruct (sid (items (after h) x)) as [i|] eqn:E; [|reflexivity]. apply sid_some in E. destruct E as (q & u & r & X & _). exfalso. eapply N, X.
Qed.
Lemma put_some h s x q s0 r : from h x q s0 r -> (s0 = s /\ ~ left_ h q s r -> says h (Put s x) = [ODelivered q]) /\ (s0 <> s \/ left_ h q s r -> says h (Put s x) = [ODropped]).
Proof.
  intros H. destruct (sid_from _ _ _ _ _ H) as (i & E & T). unfold says. cbn [step]. rewrite E. pose proof (j_reg _ _ _ _ _ (i_J _ _ (after_inv h))) as R. cbn [snd]. split.
  - intros [-> L]. replace (regs (after h) s i) with (Some q); [reflexivity|]. symmetry. apply R. exists r. split; [exact T|exact L].
  - intros D. destruct (regs (after h) s i) as [p|] eqn:Q; [|reflexivity]. apply R in Q. destruct Q as (c & X & Y). pose proof (idof_inj _ _ _ _ X T) as [= -> -> ->]. cbn in Y. destruct D; [congruence|tauto].
Qed.
Lemma sid_same h x y q s r q' s' r' : from h x q s r -> from h y q' s' r' -> (sid_of h x = sid_of h y <-> (q, s, r) = (q', s', r')).
Proof.
  intros A B. destruct (sid_from _ _ _ _ _ A) as (i & E & T), (sid_from _ _ _ _ _ B) as (j & E' & T'). unfold sid_of. rewrite E, E'. split.
  - intros [= <-]. now apply (idof_inj _ _ _ _ T T').
  - intros [= <- <- <-]. congruence.
Qed.
(** Nothing of x changes and q does not leave *)
Lemma kept_from t h x q s r : (forall l, In l t -> touches x l = false) -> from h x q s r -> from (t ++ h) x q s r.
Proof.
  induction t as [|l t IH]; intros N H; [exact H|]. cbn [app]. assert (Hl := N l (or_introl eq_refl)). assert (IH' := IH (fun l' X => N l' (or_intror X)) H).
  destruct l; cbn [from touches] in *; try exact IH'; rewrite Hl; exact IH'.
Qed.
Lemma kept_left t h q s r : ~ In (Leave q) t -> ~ left_ h q s r -> ~ left_ (t ++ h) q s r.
Proof.
  induction t as [|l t IH]; intros N H; [exact H|]. cbn [app]. assert (IH' : ~ left_ (t ++ h) q s r) by (apply IH; [intros X; apply N; now right|exact H]).
  destruct l; cbn [left_]; try exact IH'. intros [(-> & _)|X]; [|tauto]. apply N. now left.
Qed.
Lemma left_stays t h q s r : left_ h q s r -> left_ (t ++ h) q s r.
Proof. induction t as [|l t IH]; intros H; [exact H|]. cbn [app]. destruct l; cbn [left_]; auto. Qed.

(** *** Transaction ids *)
Lemma plain_tail l h : plain (l :: h) -> plain h.
Proof.
  intros [A B]. split; [intros x t X; apply (A x t); now right|]. intros z x X. specialize (B z x (or_intror X)). destruct l; cbn in B; try exact B. now apply orb_false_iff in B.
Qed.
(** The items sent have ids, those not sent have none unless they are responses *)
Record TInv (h : list lab) (y : st) : Prop := TINV {
  t_nxt : forall q, nxt (seqs y q) = S (length (first_sent h q));
  t_unsent : forall x, was_sent h x = false -> (forall z, ~ In (Info x z) h) -> tid (items y x) = None;
  t_sent : forall x, was_sent h x = true -> tid (items y x) <> None;
  t_num : forall q n x, nth_error (rev (first_sent h q)) n = Some x -> tid (items y x) = Some (Z.of_nat (S n)) /\ was_sent h x = true
}.
Lemma other_nxt y l q : (forall s x, l <> Send q s x) -> nxt (seqs (fst (step y l)) q) = nxt (seqs y q).
Proof.
  intros N. destruct l as [p [s|]|p s|p|p s x|p|p|z x|x t|s x]; cbn [step].
  - destruct (busy (seqs y p)); cbn [fst].
    + cbn. rewrite upd_if. now destruct (Nat.eqb_spec q p) as [->|].
    + pose proof (register_same (set_seq y p (Sq (fun _ => None) None (Some s) (sem (seqs y p)) (nxt (seqs y p)) true (fin (seqs y p)))) p s q) as Q. cbn zeta in Q. destruct Q as (_ & _ & _ & _ & ->). cbn. rewrite upd_if. now destruct (Nat.eqb_spec q p) as [->|].
  - destruct (busy (seqs y p)); cbn; rewrite upd_if; now destruct (Nat.eqb_spec q p) as [->|].
  - cbn [fst]. pose proof (register_same y p s q) as Q. cbn zeta in Q. tauto.
  - cbn. rewrite upd_if. now destruct (Nat.eqb_spec q p) as [->|].
  - destruct (sem (seqs y p)); [reflexivity|]. destruct (match tid (items y x) with Some _ => _ | None => _ end) as [t nx]. cbn. rewrite !upd_if. destruct (Nat.eqb_spec q p) as [->|]; [|reflexivity]. exfalso. now apply (N s x).
  - destruct (busy (seqs y p)); cbn; [rewrite upd_if; now destruct (Nat.eqb_spec q p) as [->|]|reflexivity].
  - destruct (fin (seqs y p)); [reflexivity|]. destruct (home (seqs y p)) as [s|]; cbn.
    + destruct (ids _ s); cbn; rewrite !upd_if; destruct (Nat.eqb_spec q p) as [->|]; try reflexivity; rewrite Nat.eqb_refl; reflexivity.
    + rewrite upd_if. now destruct (Nat.eqb_spec q p) as [->|].
  - reflexivity.
  - reflexivity.
  - destruct (sid (items y x)); reflexivity.
Qed.
Definition quiet (l : lab) : bool := match l with Send _ _ _ | Info _ _ | SetTid _ _ => false | _ => true end.
Lemma quiet_items y l : quiet l = true -> items (fst (step y l)) = items y.
Proof.
  destruct l as [p [s|]|p s|p|p s x|p|p|z x|x t|s x]; cbn [quiet step]; intros E; try discriminate.
  - destruct (busy (seqs y p)); [reflexivity|]. cbn [fst]. rewrite register_items; reflexivity.
  - destruct (busy (seqs y p)); reflexivity.
  - apply register_items.
  - reflexivity.
  - destruct (busy (seqs y p)); reflexivity.
  - destruct (fin (seqs y p)); [reflexivity|]. destruct (home (seqs y p)) as [s|]; [|reflexivity]. cbn. destruct (ids _ s); reflexivity.
  - destruct (sid (items y x)); reflexivity.
Qed.
Lemma tinv h : plain h -> TInv h (after h).
Proof.
  induction h as [|l h IH]; intros P; [constructor; cbn; auto; [discriminate|intros q [|n] x; discriminate]|].
  pose proof (IH (plain_tail _ _ P)) as [N U Se Nu]. cbn [after]. set (y := after h) in *.
  destruct (quiet l) eqn:Q.
  - assert (F : forall q, first_sent (l :: h) q = first_sent h q) by (intros q; destruct l; try discriminate; reflexivity).
    assert (W : forall x, was_sent (l :: h) x = was_sent h x) by (intros x; destruct l; try discriminate; reflexivity).
    constructor.
    + intros q. rewrite other_nxt, F; [apply N|]. intros s x ->. discriminate.
    + intros x. rewrite W, (quiet_items y l Q). intros A B. apply U; [exact A|]. intros z X. apply (B z). now right.
    + intros x. rewrite W, (quiet_items y l Q). apply Se.
    + intros q n x. rewrite F, W, (quiet_items y l Q). apply Nu.
  - destruct l as [p s|p s|p|p s x|p|p|z x|x t|s x]; try discriminate.
    + assert (M : sem (seqs y p) = grants h p) by apply (i_sem _ _ (after_inv h)).
      cbn [step]. rewrite M. destruct (grants h p) as [|n] eqn:E.
      * assert (F : forall q, first_sent (Send p s x :: h) q = first_sent h q).
        { intros q. cbn. destruct (Nat.eqb_spec p q) as [<-|]; [now rewrite E|reflexivity]. }
        assert (W : forall z, was_sent (Send p s x :: h) z = was_sent h z) by (intros z; cbn; rewrite E; cbn; now rewrite andb_false_r).
        cbn [fst]. constructor.
        -- intros q. rewrite F. apply N.
        -- intros z. rewrite W. intros A B. apply U; [exact A|]. intros w X. apply (B w). now right.
        -- intros z. rewrite W. apply Se.
        -- intros q m z. rewrite F, W. apply Nu.
      * assert (W : forall z, was_sent (Send p s x :: h) z = (x =? z) || was_sent h z) by (intros z; cbn; rewrite E; cbn; now rewrite andb_true_r).
        assert (NI : forall z, ~ In (Info x z) h).
        { intros z X. destruct P as [_ P]. specialize (P x z (or_intror X)). rewrite W, Nat.eqb_refl in P. discriminate. }
        destruct (was_sent h x) eqn:D.
        -- assert (F : forall q, first_sent (Send p s x :: h) q = first_sent h q).
           { intros q. cbn. rewrite D. now rewrite andb_false_r. }
           destruct (tid (items y x)) as [t|] eqn:T; [|exfalso; now apply (Se x D)]. unfold get_id. cbn [fst].
           assert (TT : forall z, tid (items (set_item (set_seq (set_seq y p (Sq (ids (seqs y p)) (cur (seqs y p)) (home (seqs y p)) n (nxt (seqs y p)) (busy (seqs y p)) (fin (seqs y p)))) p
               (with_cur (seqs (set_seq y p (Sq (ids (seqs y p)) (cur (seqs y p)) (home (seqs y p)) n (nxt (seqs y p)) (busy (seqs y p)) (fin (seqs y p)))) p)
               (ids (seqs (set_seq y p (Sq (ids (seqs y p)) (cur (seqs y p)) (home (seqs y p)) n (nxt (seqs y p)) (busy (seqs y p)) (fin (seqs y p)))) p) s))) x
               (It (ids (seqs (set_seq y p (Sq (ids (seqs y p)) (cur (seqs y p)) (home (seqs y p)) n (nxt (seqs y p)) (busy (seqs y p)) (fin (seqs y p)))) p) s) (Some t))) z) = tid (items y z)).
           { intros z. cbn. rewrite upd_if. destruct (Nat.eqb_spec z x) as [->|]; [now rewrite T|reflexivity]. }
           constructor.
           ++ intros q. rewrite F. cbn. rewrite !upd_if. destruct (Nat.eqb_spec q p) as [->|]; [|apply N]. rewrite Nat.eqb_refl. apply N.
           ++ intros z A B. rewrite TT. apply U; [rewrite W in A; now apply orb_false_iff in A|]. intros w X. apply (B w). now right.
           ++ intros z A. rewrite TT. apply Se. rewrite W in A. apply orb_true_iff in A. destruct A as [A|A]; [|exact A]. apply Nat.eqb_eq in A. now subst.
           ++ intros q m z A. rewrite TT. rewrite F in A. destruct (Nu q m z A) as [A1 A2]. split; [exact A1|]. rewrite W, A2. apply orb_true_r.
        -- assert (T : tid (items y x) = None) by (apply U; assumption). rewrite T. unfold get_id. cbn [fst].
           assert (F : forall q, first_sent (Send p s x :: h) q = if q =? p then x :: first_sent h p else first_sent h q).
           { intros q. cbn. rewrite D, (Nat.eqb_sym q p). destruct (Nat.eqb_spec p q) as [<-|]; [now rewrite E|reflexivity]. }
           constructor.
           ++ intros q. rewrite F. cbn. rewrite !upd_if. destruct (Nat.eqb_spec q p) as [->|]; [|apply N]. rewrite Nat.eqb_refl. cbn. now rewrite N.
           ++ intros z A B. rewrite W in A. apply orb_false_iff in A. destruct A as [A1 A2]. cbn. rewrite upd_if, Nat.eqb_sym, A1. apply U; [exact A2|]. intros w X. apply (B w). now right.
           ++ intros z A. rewrite W in A. cbn. rewrite upd_if, Nat.eqb_sym. destruct (x =? z); [discriminate|]. now apply Se.
           ++ intros q m z A. rewrite F in A. rewrite W. cbn [items set_item]. rewrite upd_if, (Nat.eqb_sym z x).
              destruct (Nat.eqb_spec q p) as [->|Nq].
              ** cbn [rev] in A. destruct (Nat.lt_ge_cases m (length (rev (first_sent h p)))) as [Lt|Ge].
                 --- rewrite nth_error_app1 in A by exact Lt. destruct (Nu p m z A) as [A1 A2]. rewrite A2. destruct (Nat.eqb_spec x z) as [->|]; [congruence|]. auto.
                 --- rewrite nth_error_app2 in A by exact Ge. rewrite rev_length in *. destruct (m - length (first_sent h p)) as [|j] eqn:Z; [|destruct j; discriminate]. injection A as <-. rewrite Nat.eqb_refl. cbn [tid]. rewrite N. split; [|reflexivity]. do 2 f_equal. lia.
              ** destruct (Nu q m z A) as [A1 A2]. rewrite A2. destruct (Nat.eqb_spec x z) as [->|]; [congruence|]. auto.
    + destruct P as [P1 P2]. pose proof (P2 z x (or_introl eq_refl)) as Hz. cbn in Hz. cbn [step fst]. constructor.
      * exact N.
      * intros w A B. cbn. rewrite upd_if. destruct (Nat.eqb_spec w z) as [->|]; [exfalso; apply (B x); now left|]. apply U; [exact A|]. intros v X. apply (B v). now right.
      * intros w A. cbn in A. cbn. rewrite upd_if. destruct (Nat.eqb_spec w z) as [->|]; [congruence|]. now apply Se.
      * intros q m w A. cbn in A. cbn [items set_item was_sent]. destruct (Nu q m w A) as [A1 A2]. rewrite upd_if. destruct (Nat.eqb_spec w z) as [->|]; [congruence|]. auto.
    + exfalso. destruct P as [P _]. apply (P x t). now left.
Qed.
Lemma tid_kept h q s x t : tid_of h x = Some t -> tid_of (Send q s x :: h) x = Some t.
Proof.
  unfold tid_of. cbn [after]. set (y := after h). intros T. cbn [step]. destruct (sem (seqs y q)); [exact T|]. rewrite T. cbn. rewrite upd_eq. reflexivity.
Qed.
