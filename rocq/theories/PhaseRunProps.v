(** C58: execution of phases. *)
From Coq Require Import ZArith List Bool Arith Lia Permutation.
From Verif Require Import Prelude PhaseRunModel.
Import ListNotations.
Local Open Scope nat_scope.

Section P.
Context (g : pgraph) (fuel : nat).
Notation prog := (prog g fuel).
Notation stepo := (stepo g fuel).
Notation pstep := (pstep g fuel).

(** Events of one node, and those that its program emits. *)
Definition of_node (n : nat) (e : pev) : bool := match e with ESet m _ | EExec m => Nat.eqb n m | ESched _ => false end.
Definition emit (n : nat) (i : instr) : list pev := match i with ISet st => [ESet n st] | IExec => [EExec n] | _ => [] end.
Definition emitted (n k : nat) : list pev := flat_map (emit n) (firstn k (prog n)).

Lemma firstn_S_nth {A} (l : list A) k x : nth_error l k = Some x -> firstn (S k) l = firstn k l ++ [x].
Proof. revert k. induction l as [|y l IH]; intros [|k] H; cbn in *; try discriminate; [now injection H as ->|now rewrite (IH k H)]. Qed.
Lemma emitted_S n k i : nth_error (prog n) k = Some i -> emitted n (S k) = emitted n k ++ emit n i.
Proof. intros H. unfold emitted. rewrite (firstn_S_nth _ _ _ H), flat_map_app. cbn. now rewrite app_nil_r. Qed.
Lemma emitted_all n k : length (prog n) <= k -> emitted n k = flat_map (emit n) (prog n).
Proof. intros H. unfold emitted. now rewrite firstn_all2. Qed.

(** What the program emits: its states in increasing order, ending with DONE. *)
Lemma emit_sibs n st : flat_map (emit n) (sibwait g fuel n st) = [].
Proof.
  unfold sibwait. destruct (siblings g fuel n) as [| |l]; [reflexivity|reflexivity|]. induction l; auto.
Qed.
Lemma emit_sched n l : flat_map (emit n) (map ISched l) = [].
Proof. induction l; auto. Qed.
Definition full (n : nat) : list pev :=
  [ESet n SYNCING; ESet n STARTED; ESet n EXECUTING] ++
  (if isnode g n then EExec n :: (if istask g n then [ESet n READY_TO_END] else []) ++ [ESet n ENDED; ESet n CLEANUP] else []) ++ [ESet n DONE].
Lemma emit_prog n : flat_map (emit n) (prog n) = full n.
Proof.
  unfold PhaseRunModel.prog, full. rewrite !flat_map_app. cbn [flat_map emit app]. rewrite emit_sched.
  destruct (isnode g n); [|reflexivity]. cbn [flat_map emit app]. rewrite flat_map_app.
  destruct (istask g n); cbn [flat_map emit app].
  - rewrite flat_map_app. cbn [flat_map emit app]. rewrite !emit_sibs. reflexivity.
  - rewrite emit_sibs. reflexivity.
Qed.
Lemma full_nodup n : NoDup (full n).
Proof.
  unfold full. destruct (isnode g n), (istask g n); cbn; repeat constructor; cbn; intuition discriminate.
Qed.
Lemma emitted_prefix n k : exists r, full n = emitted n k ++ r.
Proof.
  exists (flat_map (emit n) (skipn k (prog n))). unfold emitted. rewrite <- flat_map_app, firstn_skipn. symmetry. apply emit_prog.
Qed.
Lemma prog0 n : nth_error (prog n) 0 = Some IWaitPreds.
Proof. reflexivity. Qed.
Lemma prog_wait n k : nth_error (prog n) k = Some IWaitPreds -> k = 0.
Proof.
  destruct k as [|k]; [reflexivity|]. intros H. exfalso.
  assert (G : ~ In IWaitPreds (tl (prog n))).
  { unfold PhaseRunModel.prog. cbn [app tl]. intros Hi. cbn [In] in Hi. repeat (destruct Hi as [Hi|Hi]; [discriminate Hi|]).
    rewrite in_app_iff in Hi.
    assert (Hs : forall st, ~ In IWaitPreds (sibwait g fuel n st)).
    { intros st. unfold sibwait. destruct (siblings g fuel n); cbn; try (intros [H'|[]]; discriminate H'). rewrite in_map_iff. intros (x & Hx & _). discriminate Hx. }
    destruct Hi as [Hi|[Hi|Hi]]; [| discriminate Hi |rewrite in_map_iff in Hi; destruct Hi as (x & Hx & _); discriminate Hx].
    destruct (isnode g n); [|destruct Hi]. destruct Hi as [Hi|Hi]; [discriminate Hi|]. rewrite in_app_iff in Hi.
    destruct Hi as [Hi|[Hi|[Hi|[]]]]; try discriminate Hi. destruct (istask g n); [|now apply (Hs READY_TO_END)].
    destruct Hi as [Hi|Hi]; [discriminate Hi|]. rewrite in_app_iff in Hi. destruct Hi as [Hi|[Hi|Hi]]; [now apply (Hs EXECUTING)|discriminate Hi|now apply (Hs EXECUTING)]. }
  apply G. change (nth_error (tl (prog n)) k = Some IWaitPreds) in H. eapply nth_error_In; eauto.
Qed.
Lemma started_pos n k : In (ESet n STARTED) (emitted n k) -> 2 < k.
Proof.
  unfold emitted. destruct k as [|[|[|k]]]; cbn; try lia; intuition discriminate.
Qed.


(** *** Steps without the wait bookkeeping *)
Notation key := (nat * nat * option nat)%type.
Definition key_of (p : proc) : key := (pnode p, ppos p, pput p).
Definition keys (s : pstate) : list key := map key_of (procs s).
Definition knode (k : key) : nat := fst (fst k).
Definition kpos (k : key) : nat := snd (fst k).
Definition kput (k : key) : option nat := snd k.
Lemma lset_map {A B} (f : A -> B) l : forall i x, map f (lset l i x) = lset (map f l) i (f x).
Proof. induction l as [|y l IH]; intros [|i] x; cbn; auto. now rewrite IH. Qed.
Lemma key_wake q l : map key_of (map (wake g fuel q) l) = map key_of l.
Proof. rewrite map_map. apply map_ext. intros [n k o w]. unfold wake. now destruct (waits_on g fuel q (Proc n k o w)). Qed.
Inductive astep (s s' : pstate) : list pev -> Prop :=
| a_spawn n t : hopper s = n :: t -> hopper s' = t -> keys s' = keys s ++ [(n, 0, None)] -> mst s' = mst s -> done_ev s' = done_ev s -> astep s s' []
| a_put i n k q : nth_error (keys s) i = Some (n, k, Some q) -> hopper s' = hopper s ++ [q] -> keys s' = lset (keys s) i (n, k, None) ->
    mst s' = mst s -> done_ev s' = done_ev s -> astep s s' []
| a_return i n : nth_error (keys s) i = Some (n, 0, None) -> mst s n = DONE -> astep s s' []
| a_adv i n k x : nth_error (keys s) i = Some (n, k, None) -> nth_error (prog n) k = Some x -> (forall st, x <> ISet st) -> (forall q, x = ISched q -> (SCHEDULED <= mst s q)%Z) ->
    (x = IWaitPreds -> forall q, In q (preds g n) -> done_ev s q = true) ->
    hopper s' = hopper s -> keys s' = lset (keys s) i (n, S k, None) -> mst s' = mst s -> done_ev s' = done_ev s -> astep s s' (emit n x)
| a_set i n k st : nth_error (keys s) i = Some (n, k, None) -> nth_error (prog n) k = Some (ISet st) ->
    hopper s' = hopper s -> keys s' = lset (keys s) i (n, S k, None) -> mst s' = upd (mst s) n st ->
    done_ev s' = (if (st =? DONE)%Z then upd (done_ev s) n true else done_ev s) -> astep s s' [ESet n st]
| a_sched i n k q : nth_error (keys s) i = Some (n, k, None) -> nth_error (prog n) k = Some (ISched q) -> (mst s q < SCHEDULED)%Z ->
    hopper s' = hopper s -> keys s' = lset (keys s) i (n, S k, Some q) -> mst s' = upd (mst s) q SCHEDULED -> done_ev s' = done_ev s -> astep s s' [ESched q]
| a_wait : hopper s' = hopper s -> keys s' = keys s -> mst s' = mst s -> done_ev s' = done_ev s -> astep s s' [].
Lemma lset_same {A} (l : list A) : forall i x, nth_error l i = Some x -> lset l i x = l.
Proof. induction l as [|y l IH]; intros [|i] x H; cbn in *; try discriminate; [now injection H as ->|now rewrite IH]. Qed.
Lemma step_astep s l s' ev : stepo s l = Some (s', ev) -> astep s s' ev.
Proof.
  destruct l as [|i]; cbn [PhaseRunModel.stepo].
  - destruct (hopper s) as [|n t] eqn:Eh; [discriminate|]. intros H. injection H as <- <-.
    eapply a_spawn; try reflexivity; [exact Eh|]. unfold keys. cbn [procs]. now rewrite map_app.
  - destruct (nth_error (procs s) i) as [[n k [q|] w]|] eqn:Ei; [| |discriminate].
    + intros H. injection H as <- <-. assert (Hk : nth_error (keys s) i = Some (n, k, Some q)) by (unfold keys; rewrite nth_error_map, Ei; reflexivity).
      eapply a_put; try reflexivity; eauto. unfold keys. cbn [procs]. now rewrite lset_map.
    + assert (Hk : nth_error (keys s) i = Some (n, k, None)) by (unfold keys; rewrite nth_error_map, Ei; reflexivity).
      assert (Hl : forall p, map key_of (lset (procs s) i p) = lset (keys s) i (key_of p)) by (intros; apply lset_map).
      destruct (nth_error (prog n) k) as [[|st| | |q st| |q]|] eqn:Ex; try discriminate.
      * destruct (forallb (done_ev s) (preds g n)) eqn:Ef; [|discriminate]. intros H. injection H as <- <-. rewrite forallb_forall in Ef.
        destruct (Z.eqb_spec (mst s n) DONE) as [Ed|Ed].
        -- apply prog_wait in Ex. subst k. eapply a_return; eauto.
        -- change (@nil pev) with (emit n IWaitPreds). eapply a_adv; eauto; try reflexivity; try discriminate. unfold keys. cbn. now rewrite Hl.
      * intros H. injection H as <- <-. eapply a_set; eauto; try reflexivity. unfold keys. cbn [set_state set_proc procs]. rewrite key_wake. now rewrite Hl.
      * intros H. injection H as <- <-. change [EExec n] with (emit n IExec). eapply a_adv; eauto; try reflexivity; try discriminate. unfold keys. cbn. now rewrite Hl.
      * intros H. injection H as <- <-. change (@nil pev) with (emit n IBody). eapply a_adv; eauto; try reflexivity; try discriminate. unfold keys. cbn. now rewrite Hl.
      * destruct w.
        -- intros H. injection H as <- <-. apply a_wait; try reflexivity. unfold keys. cbn. rewrite Hl. now apply lset_same.
        -- discriminate.
        -- intros H. injection H as <- <-. destruct (st <=? mst s q)%Z.
           ++ change (@nil pev) with (emit n (IWaitSib q st)). eapply a_adv; eauto; try reflexivity; try discriminate. unfold keys. cbn. now rewrite Hl.
           ++ apply a_wait; try reflexivity. unfold keys. cbn. rewrite Hl. now apply lset_same.
      * destruct (Z.ltb_spec (mst s q) SCHEDULED) as [E|E]; intros H; injection H as <- <-.
        -- eapply a_sched; eauto; try reflexivity. unfold keys. cbn [set_state set_proc procs]. rewrite key_wake. now rewrite Hl.
        -- change (@nil pev) with (emit n (ISched q)). eapply a_adv; eauto; try reflexivity; try discriminate; [intros ? [= <-]; lia|]. unfold keys. cbn. now rewrite Hl.
Qed.

(** *** The invariant *)
Definition pends (l : list key) : list nat := flat_map (fun k => match kput k with Some q => [q] | None => [] end) l.
(** The nodes that have been handed over for execution. *)
Definition taken (s : pstate) : list nat := map knode (keys s) ++ hopper s ++ pends (keys s).
Definition pos_of (l : list key) (n : nat) : option nat := option_map kpos (find (fun k => Nat.eqb n (knode k)) l).
Record inv (root : nat) (s : pstate) (tr : list pev) : Prop := Inv {
  i_nodup : NoDup (taken s);
  i_root : In root (taken s);
  i_taken : forall n, In n (taken s) <-> n = root \/ (SCHEDULED <= mst s n)%Z;
  i_early : (mst s root < SCHEDULED)%Z -> (forall n, (mst s n < SCHEDULED)%Z) /\ (forall k, In k (keys s) -> knode k = root /\ kpos k <= 1 /\ kput k = None);
  i_events : forall n, filter (of_node n) tr = match pos_of (keys s) n with Some k => emitted n k | None => [] end;
  i_mst : forall n, mst s n = DONE <-> In (ESet n DONE) tr;
  i_done : forall n, done_ev s n = true <-> In (ESet n DONE) tr;
  i_preds : forall k, In k (keys s) -> 0 < kpos k -> forall q, In q (preds g (knode k)) -> done_ev s q = true;
  i_order : forall t1 t2 n, tr = t1 ++ ESet n STARTED :: t2 -> forall q, In q (preds g n) -> In (ESet q DONE) t1
}.
Lemma lset_nodes l : forall i n k o k' o', nth_error l i = Some (n, k, o) -> map knode (lset l i (n, k', o')) = map knode l.
Proof. induction l as [|y l IH]; intros [|i] n k o k' o' H; cbn in *; try discriminate; [injection H as ->; reflexivity|now rewrite (IH _ _ _ _ _ _ H)]. Qed.
Lemma pos_lset l : forall i n k o k' o' m, NoDup (map knode l) -> nth_error l i = Some (n, k, o) ->
  pos_of (lset l i (n, k', o')) m = if Nat.eqb m n then Some k' else pos_of l m.
Proof.
  unfold pos_of. induction l as [|y l IH]; intros [|i] n k o k' o' m Hnd H; cbn in *; try discriminate; inversion Hnd as [|? ? Hy Hl]; subst.
  - injection H as ->. cbn. now destruct (Nat.eqb_spec m n).
  - specialize (IH i n k o k' o' m Hl H). destruct (Nat.eqb_spec m (knode y)) as [->|E]; [|exact IH]. cbn.
    destruct (Nat.eqb_spec (knode y) n) as [<-|]; [|reflexivity].
    exfalso. apply Hy. apply nth_error_In in H. apply (in_map knode) in H. exact H.
Qed.
Lemma pos_nth l : forall i n k o, NoDup (map knode l) -> nth_error l i = Some (n, k, o) -> pos_of l n = Some k.
Proof.
  unfold pos_of. induction l as [|y l IH]; intros [|i] n k o Hnd H; cbn in *; try discriminate; inversion Hnd as [|? ? Hy Hl]; subst.
  - injection H as ->. cbn. now rewrite Nat.eqb_refl.
  - destruct (Nat.eqb_spec n (knode y)) as [->|E]; [|eapply IH; eauto].
    exfalso. apply Hy. apply nth_error_In in H. apply (in_map knode) in H. exact H.
Qed.
Lemma pos_app l n m : ~ In n (map knode l) -> pos_of (l ++ [(n, 0, None)]) m = if Nat.eqb m n then Some 0 else pos_of l m.
Proof.
  unfold pos_of. induction l as [|y l IH]; intros H; cbn in *.
  - now destruct (Nat.eqb_spec m n).
  - destruct (Nat.eqb_spec m (knode y)) as [->|E]; [|apply IH; tauto]. destruct (Nat.eqb_spec (knode y) n) as [E2|]; [exfalso; apply H; now left|reflexivity].
Qed.
Lemma lset_in {A} (l : list A) : forall i x y, In y (lset l i x) -> y = x \/ In y l.
Proof.
  induction l as [|z l IH]; intros [|i] x y H; cbn in *; [tauto|tauto| |].
  - destruct H as [<-|H]; auto.
  - destruct H as [<-|H]; auto. apply IH in H. tauto.
Qed.
Lemma pends_lset l : forall i n k o k' o', nth_error l i = Some (n, k, o) ->
  exists a b, pends l = a ++ match o with Some q => [q] | None => [] end ++ b /\ pends (lset l i (n, k', o')) = a ++ match o' with Some q => [q] | None => [] end ++ b.
Proof.
  unfold pends. induction l as [|y l IH]; intros [|i] n k o k' o' H; cbn in *; try discriminate.
  - injection H as ->. exists [], (flat_map (fun k => match kput k with Some q => [q] | None => [] end) l). auto.
  - destruct (IH _ _ _ _ k' o' H) as (a & b & -> & ->). exists ((match kput y with Some q => [q] | None => [] end) ++ a), b. now rewrite <- !app_assoc.
Qed.
Lemma pends_lset_none l i n k k' : nth_error l i = Some (n, k, None) -> pends (lset l i (n, k', None)) = pends l.
Proof. intros H. destruct (pends_lset _ _ _ _ _ k' None H) as (a & b & -> & ->). reflexivity. Qed.

Lemma in_taken s n : In n (taken s) <-> In n (map knode (keys s)) \/ In n (hopper s) \/ In n (pends (keys s)).
Proof. unfold taken. now rewrite !in_app_iff. Qed.
Lemma nodup_nodes s : NoDup (taken s) -> NoDup (map knode (keys s)).
Proof. unfold taken. generalize (hopper s ++ pends (keys s)). induction (map knode (keys s)) as [|a l IH]; intros m H; constructor; inversion H; subst; eauto. rewrite in_app_iff in *. tauto. Qed.
Lemma last_only {A} (f p q : list A) d : NoDup (p ++ q) -> p ++ q = f ++ [d] -> In d p -> q = [].
Proof.
  intros Hnd E Hd. destruct q as [|x q _] using rev_ind; [reflexivity|]. exfalso.
  rewrite app_assoc in E, Hnd. apply app_inj_tail in E as [_ ->]. apply NoDup_remove_2 in Hnd. apply Hnd. rewrite app_nil_r. apply in_or_app. now left.
Qed.
(** DONE is the last event of a node. *)
Lemma full_last n : exists f, full n = f ++ [ESet n DONE].
Proof. unfold full. rewrite app_assoc. eexists. reflexivity. Qed.
Lemma done_last n k x : nth_error (prog n) k = Some x -> In (ESet n DONE) (emitted n k) -> emit n x = [].
Proof.
  intros Hx Hd. destruct (emitted_prefix n (S k)) as [r Hr]. rewrite (emitted_S n k x Hx), <- app_assoc in Hr.
  destruct (full_last n) as [f Hf]. pose proof (full_nodup n) as Hnd. rewrite Hr in Hf, Hnd.
  apply (last_only f _ _ _ Hnd Hf) in Hd. now apply app_eq_nil in Hd.
Qed.

Lemma inv_step root s tr s' ev : inv root s tr -> astep s s' ev -> inv root s' (tr ++ ev).
Proof.
  intros [Ind Ir It Ie Iev Im Id Ip Io] H.
  assert (Hnn := nodup_nodes s Ind).
  (* properties only about keys *)
  destruct H as [n t Eh Eh' Ek Em Ed|i n k q Ei Eh' Ek Em Ed|i n Ei Emd|i n k x Ei Ex Hns Hsq Hpr Eh' Ek Em Ed|i n k st Ei Ex Eh' Ek Em Ed|i n k q Ei Ex Hq Eh' Ek Em Ed|Eh' Ek Em Ed].
  - (* spawn *)
    rewrite app_nil_r.
    assert (Hpn : pends (keys s') = pends (keys s)) by (rewrite Ek; unfold pends; rewrite flat_map_app; cbn; apply app_nil_r).
    assert (Hin : forall m, In m (taken s') <-> In m (taken s)).
    { intros m. rewrite !in_taken, Hpn, Ek, Eh, Eh', map_app, in_app_iff. cbn. tauto. }
    assert (Hnew : ~ In n (map knode (keys s))).
    { intros Hi. unfold taken in Ind. rewrite Eh in Ind. cbn in Ind. apply NoDup_remove_2 in Ind. apply Ind. apply in_or_app. now left. }
    constructor; auto.
    + unfold taken. rewrite Hpn, Ek, Eh', map_app. cbn. rewrite <- app_assoc. cbn. unfold taken in Ind. rewrite Eh in Ind. exact Ind.
    + now apply Hin.
    + intros m. now rewrite Hin, Em.
    + rewrite Em. intros He. destruct (Ie He) as [E1 E2]. split; [exact E1|]. intros y Hy. rewrite Ek in Hy. apply in_app_or in Hy as [Hy|[<-|[]]]; [auto|].
      cbn. assert (In n (taken s)) as Hn by (rewrite in_taken, Eh; right; left; now left). apply It in Hn as [->|Hn]; [auto|]. specialize (E1 n). lia.
    + intros m. rewrite Ek, pos_app by exact Hnew. rewrite Iev. destruct (Nat.eqb_spec m n) as [->|]; [|reflexivity].
      assert (pos_of (keys s) n = None) as ->; [|reflexivity].
      unfold pos_of. destruct (find _ (keys s)) eqn:Ef; [|reflexivity]. apply find_some in Ef as [Hf1 Hf2]. apply Nat.eqb_eq in Hf2. exfalso. apply Hnew. rewrite Hf2. now apply in_map.
    + intros m. now rewrite Em.
    + intros m. now rewrite Ed.
    + intros y Hy Hp q Hq. rewrite Ed. rewrite Ek in Hy. apply in_app_or in Hy as [Hy|[<-|[]]]; [eauto|cbn in Hp; lia].
  - (* put *)
    rewrite app_nil_r.
    destruct (pends_lset _ _ _ _ _ k None Ei) as (a & b & P1 & P2). cbn in P1, P2.
    assert (Hmap : map knode (keys s') = map knode (keys s)) by (rewrite Ek; eapply lset_nodes; eauto).
    assert (Hin : forall m, In m (taken s') <-> In m (taken s)).
    { intros m. rewrite !in_taken, Hmap, Ek, P1, P2, Eh', !in_app_iff. cbn. tauto. }
    constructor; auto.
    + unfold taken in *. rewrite Hmap, Eh', Ek, P2. rewrite P1 in Ind.
      apply (Permutation_NoDup (l := map knode (keys s) ++ hopper s ++ a ++ q :: b)); [|exact Ind].
      apply Permutation_app_head. rewrite <- !app_assoc. apply Permutation_app_head. cbn.
      symmetry. apply Permutation_cons_app. reflexivity.
    + now apply Hin.
    + intros m. now rewrite Hin, Em.
    + rewrite Em. intros He. destruct (Ie He) as [E1 E2]. split; [exact E1|]. intros y Hy. rewrite Ek in Hy. apply lset_in in Hy as [->|Hy]; [|auto].
      destruct (E2 _ (nth_error_In _ _ Ei)) as (F1 & F2 & F3). discriminate F3.
    + intros m. rewrite Ek. rewrite (pos_lset _ _ _ _ _ _ _ _ Hnn Ei), Iev. destruct (Nat.eqb_spec m n) as [->|]; [|reflexivity].
      now rewrite (pos_nth _ _ _ _ _ Hnn Ei).
    + intros m. now rewrite Em.
    + intros m. now rewrite Ed.
    + intros y Hy Hp z Hz. rewrite Ed. rewrite Ek in Hy. apply lset_in in Hy as [->|Hy]; [|eauto]. apply (Ip _ (nth_error_In _ _ Ei)); auto.
  - (* return: impossible *)
    exfalso. apply Im in Emd. assert (In (ESet n DONE) (filter (of_node n) tr)) as Hf by (apply filter_In; split; [exact Emd|cbn; apply Nat.eqb_refl]).
    rewrite Iev, (pos_nth _ _ _ _ _ Hnn Ei) in Hf. destruct Hf.
  - (* advance *)
    assert (Hmap : map knode (keys s') = map knode (keys s)) by (rewrite Ek; eapply lset_nodes; eauto).
    assert (Hpn : pends (keys s') = pends (keys s)) by (rewrite Ek; now apply pends_lset_none with (k := k)).
    assert (Ht : taken s' = taken s) by (unfold taken; now rewrite Hmap, Hpn, Eh').
    assert (Hem : forall m, filter (of_node m) (emit n x) = if Nat.eqb m n then emit n x else []).
    { intros m. destruct x; cbn; try (now destruct (Nat.eqb m n)). }
    assert (Hni : forall m, ~ In (ESet m DONE) (emit n x) /\ ~ In (ESet m STARTED) (emit n x)).
    { intros m. destruct x as [|st| | | | |]; cbn; try tauto; [now destruct (Hns st)|]. split; intros [H|[]]; discriminate H. }
    constructor.
    + now rewrite Ht.
    + now rewrite Ht.
    + intros m. now rewrite Ht, Em.
    + rewrite Em. intros He. destruct (Ie He) as [E1 E2]. split; [exact E1|]. intros y Hy. rewrite Ek in Hy. apply lset_in in Hy as [->|Hy]; [|auto].
      destruct (E2 _ (nth_error_In _ _ Ei)) as (F1 & F2 & F3). cbn in F1, F2. cbn. subst n. split; [reflexivity|]. split; [|reflexivity].
      destruct k as [|[|k]]; [lia| |lia]. cbn in Ex. injection Ex as <-. exfalso. now apply (Hns SYNCING).
    + intros m. rewrite filter_app, Hem, Ek, (pos_lset _ _ _ _ _ _ _ _ Hnn Ei), Iev. destruct (Nat.eqb_spec m n) as [->|]; [|now rewrite app_nil_r].
      rewrite (pos_nth _ _ _ _ _ Hnn Ei). symmetry. now apply emitted_S.
    + intros m. rewrite Em, Im, in_app_iff. specialize (Hni m). tauto.
    + intros m. rewrite Ed, Id, in_app_iff. specialize (Hni m). tauto.
    + intros y Hy Hp z Hz. rewrite Ed. rewrite Ek in Hy. apply lset_in in Hy as [->|Hy]; [|eauto]. cbn in Hz.
      destruct k as [|k]; [rewrite prog0 in Ex; injection Ex as <-; now apply Hpr|]. apply (Ip _ (nth_error_In _ _ Ei)); [cbn; lia|exact Hz].
    + intros t1 t2 m Hs q Hq. destruct (exists_last (l := ESet m STARTED :: t2)) as (t3 & z & Hz); [discriminate|].
      destruct (emit n x) as [|e [|e2 l2]] eqn:Eem; [rewrite app_nil_r in Hs; eauto| |destruct x; cbn in Eem; discriminate].
      rewrite Hz, app_assoc in Hs. apply app_inj_tail in Hs as [Hs <-].
      destruct t3 as [|y t3]; [cbn in Hz; injection Hz as <- _; exfalso; apply (proj2 (Hni m)); now left|].
      cbn in Hz. injection Hz as <- ->. eauto.
  - (* set *)
    assert (Hmap : map knode (keys s') = map knode (keys s)) by (rewrite Ek; eapply lset_nodes; eauto).
    assert (Hpn : pends (keys s') = pends (keys s)) by (rewrite Ek; now apply pends_lset_none with (k := k)).
    assert (Ht : taken s' = taken s) by (unfold taken; now rewrite Hmap, Hpn, Eh').
    assert (Hnt : In n (taken s)) by (apply in_taken; left; apply nth_error_In in Ei; now apply (in_map knode) in Ei).
    assert (Hst : (SYNCING <= st)%Z).
    { assert (In (ESet n st) (full n)) as Hf.
      { destruct (emitted_prefix n (S k)) as [r ->]. rewrite (emitted_S n k _ Ex). apply in_or_app. left. apply in_or_app. right. now left. }
      unfold full in Hf. destruct (isnode g n), (istask g n); cbn in Hf; repeat (destruct Hf as [Hf|Hf]; [try discriminate Hf; injection Hf as <-; vm_compute; discriminate|]); contradiction. }
    assert (Hnd : ~ In (ESet n DONE) tr).
    { intros Hd. assert (In (ESet n DONE) (emitted n k)) as He.
      { assert (In (ESet n DONE) (filter (of_node n) tr)) as Hf by (apply filter_In; split; [exact Hd|cbn; apply Nat.eqb_refl]).
        now rewrite Iev, (pos_nth _ _ _ _ _ Hnn Ei) in Hf. }
      apply (done_last n k _ Ex) in He. discriminate He. }
    assert (SS : (SCHEDULED < SYNCING)%Z) by reflexivity.
    constructor.
    + now rewrite Ht.
    + now rewrite Ht.
    + intros m. rewrite Ht, It, Em. unfold upd. destruct (Nat.eqb_spec m n) as [->|]; [|reflexivity]. split; [intros _; right; lia|]. intros _. now apply It.
    + rewrite Em. unfold upd. destruct (Nat.eqb_spec root n) as [->|Hne]; [lia|]. intros He. exfalso. destruct (Ie He) as [_ E2].
      destruct (E2 _ (nth_error_In _ _ Ei)) as (F1 & _). cbn in F1. congruence.
    + intros m. rewrite filter_app, Ek, (pos_lset _ _ _ _ _ _ _ _ Hnn Ei), Iev. cbn [filter of_node]. destruct (Nat.eqb_spec m n) as [->|]; [|now rewrite app_nil_r].
      rewrite (pos_nth _ _ _ _ _ Hnn Ei). symmetry. exact (emitted_S n k _ Ex).
    + intros m. rewrite Em, in_app_iff. unfold upd. destruct (Nat.eqb_spec m n) as [->|Hne].
      * cbn. split; [intros ->; auto|]. intros [Hd|[Hd|[]]]; [contradiction|now injection Hd].
      * rewrite Im. cbn. split; [auto|]. intros [Hd|[Hd|[]]]; [exact Hd|congruence].
    + intros m. rewrite Ed, in_app_iff. cbn. destruct (Z.eqb_spec st DONE) as [->|Hne].
      * unfold upd. destruct (Nat.eqb_spec m n) as [->|Hmn]; [tauto|]. rewrite Id. split; [auto|]. intros [Hd|[Hd|[]]]; [exact Hd|congruence].
      * rewrite Id. split; [auto|]. intros [Hd|[Hd|[]]]; [exact Hd|congruence].
    + assert (Hmono : forall q, done_ev s q = true -> done_ev s' q = true) by (intros q Hq; rewrite Ed; destruct (st =? DONE)%Z; [unfold upd; now destruct (Nat.eqb q n)|exact Hq]).
      intros y Hy Hp z Hz. apply Hmono. rewrite Ek in Hy. apply lset_in in Hy as [->|Hy]; [|eauto]. cbn in Hz.
      destruct k as [|k]; [rewrite prog0 in Ex; discriminate Ex|]. apply (Ip _ (nth_error_In _ _ Ei)); [cbn; lia|exact Hz].
    + intros t1 t2 m Hs q Hq. destruct (exists_last (l := ESet m STARTED :: t2)) as (t3 & z & Hz); [discriminate|].
      rewrite Hz, app_assoc in Hs. apply app_inj_tail in Hs as [Hs <-].
      destruct t3 as [|y t3].
      * cbn in Hz. injection Hz as -> Hst2 ->. rewrite app_nil_r in Hs. subst t1. apply Id.
        destruct k as [|k]; [rewrite prog0 in Ex; discriminate Ex|]. apply (Ip _ (nth_error_In _ _ Ei)); [cbn; lia|exact Hq].
      * cbn in Hz. injection Hz as <- ->. eauto.
  - (* schedule *)
    assert (Hmap : map knode (keys s') = map knode (keys s)) by (rewrite Ek; eapply lset_nodes; eauto).
    destruct (pends_lset _ _ _ _ _ (S k) (Some q) Ei) as (a & b & P1 & P2). cbn in P1, P2.
    assert (Hroot : (SCHEDULED <= mst s root)%Z).
    { destruct (Z.lt_ge_cases (mst s root) SCHEDULED) as [He|He]; [|exact He]. destruct (Ie He) as [_ E2].
      destruct (E2 _ (nth_error_In _ _ Ei)) as (_ & F2 & _). cbn in F2. destruct k as [|[|k]]; [discriminate Ex|discriminate Ex|lia]. }
    assert (Hqn : ~ In q (taken s)) by (rewrite It; intros [->|Hc]; lia).
    assert (Hin : forall m, In m (taken s') <-> In m (taken s) \/ m = q).
    { intros m. rewrite !in_taken, Hmap, Ek, P1, P2, Eh', !in_app_iff. cbn. intuition. }
    constructor.
    + unfold taken in *. rewrite Hmap, Eh', Ek, P2. rewrite P1 in Ind, Hqn.
      apply (Permutation_NoDup (l := q :: map knode (keys s) ++ hopper s ++ a ++ b)).
      * rewrite !app_assoc. apply Permutation_middle.
      * constructor; auto.
    + apply Hin. now left.
    + intros m. rewrite Hin, It, Em. unfold upd. destruct (Nat.eqb_spec m q) as [->|Hne]; [split; [right; lia|auto]|]. tauto.
    + rewrite Em. unfold upd. destruct (Nat.eqb_spec root q) as [<-|Hne]; lia.
    + intros m. rewrite filter_app. cbn [filter of_node]. rewrite app_nil_r, Ek, (pos_lset _ _ _ _ _ _ _ _ Hnn Ei), Iev. destruct (Nat.eqb_spec m n) as [->|]; [|reflexivity].
      rewrite (pos_nth _ _ _ _ _ Hnn Ei). rewrite (emitted_S n k _ Ex). cbn. now rewrite app_nil_r.
    + intros m. rewrite Em, in_app_iff. unfold upd. destruct (Nat.eqb_spec m q) as [->|Hne].
      * split; [discriminate|]. intros [Hd|[Hd|[]]]; [|discriminate]. apply Im in Hd. rewrite Hd in Hq. vm_compute in Hq. discriminate.
      * rewrite Im. cbn. split; [auto|]. intros [Hd|[Hd|[]]]; [exact Hd|discriminate].
    + intros m. rewrite Ed, in_app_iff, Id. cbn. split; [auto|]. intros [Hd|[Hd|[]]]; [exact Hd|discriminate].
    + intros y Hy Hp z Hz. rewrite Ed. rewrite Ek in Hy. apply lset_in in Hy as [->|Hy]; [|eauto]. cbn in Hz.
      destruct k as [|k]; [rewrite prog0 in Ex; discriminate Ex|]. apply (Ip _ (nth_error_In _ _ Ei)); [cbn; lia|exact Hz].
    + intros t1 t2 m Hs z' Hz'. destruct (exists_last (l := ESet m STARTED :: t2)) as (t3 & z & Hz); [discriminate|].
      rewrite Hz, app_assoc in Hs. apply app_inj_tail in Hs as [Hs <-].
      destruct t3 as [|y t3]; [cbn in Hz; discriminate Hz|]. cbn in Hz. injection Hz as <- ->. eauto.
  - rewrite app_nil_r. assert (Ht : taken s' = taken s) by (unfold taken; now rewrite Ek, Eh').
    constructor; rewrite ?Ht, ?Em, ?Ed, ?Ek; auto; intros n; now rewrite ?Ht, ?Em.
Qed.
Lemma inv_init root : inv root (pinit root) [].
Proof.
  constructor.
  - repeat constructor. intros [].
  - now left.
  - intros n. cbn. split; [intros [->|[]]; auto|]. intros [->|H]; [auto|]. vm_compute in H. now destruct H.
  - intros _. split; [reflexivity|intros k []].
  - reflexivity.
  - intros n. split; [discriminate|intros []].
  - intros n. split; [discriminate|intros []].
  - intros k [].
  - intros [|x t1] t2 n H; discriminate H.
Qed.
Lemma inv_run root ls : inv root (fst (run_machine pstep (pinit root) ls)) (snd (run_machine pstep (pinit root) ls)).
Proof.
  refine (run_machine_inv pstep (inv root) _ ls (pinit root) [] (inv_init root)).
  intros s tr l Hi. unfold PhaseRunModel.pstep. destruct (stepo s l) as [[s' ev]|] eqn:E; cbn [fst snd]; [|now rewrite app_nil_r].
  eapply inv_step; eauto. eapply step_astep; eauto.
Qed.

(** ** C58 *)
(** What has happened when [ls] was scheduled. *)
Definition happened (root : nat) (ls : list plab) : list pev := snd (run_machine pstep (pinit root) ls).
(** A node is started only after all its predecessors are done. *)
Theorem C58_predecessors root ls t1 t2 n : happened root ls = t1 ++ ESet n STARTED :: t2 -> forall q, In q (preds g n) -> In (ESet q DONE) t1.
Proof. intros H. eapply (i_order root _ _ (inv_run root ls)); eauto. Qed.
Lemma of_node_sub root ls n : exists r, full n = filter (of_node n) (happened root ls) ++ r.
Proof.
  pose proof (i_events root _ _ (inv_run root ls) n) as H. unfold happened. rewrite H.
  destruct (pos_of _ n); [apply emitted_prefix|now exists (full n)].
Qed.
(** The events of a node are an initial part of: SYNCING, STARTED, EXECUTING, its execution
    (of which READY_TO_END for tasks, ENDED and CLEANUP), DONE; so nothing happens twice, and
    the node is executed only after it was started. *)
Theorem C58_sequence root ls n : exists r, filter (of_node n) (happened root ls) ++ r =
  [ESet n SYNCING; ESet n STARTED; ESet n EXECUTING] ++
  (if isnode g n then EExec n :: (if istask g n then [ESet n READY_TO_END] else []) ++ [ESet n ENDED; ESet n CLEANUP] else []) ++ [ESet n DONE].
Proof. destruct (of_node_sub root ls n) as [r Hr]. exists r. now rewrite <- Hr. Qed.
Theorem C58_once root ls n e : of_node n e = true -> forall t1 t2, happened root ls = t1 ++ e :: t2 -> ~ In e t1 /\ ~ In e t2.
Proof.
  intros He t1 t2 H. destruct (of_node_sub root ls n) as [r Hr]. pose proof (full_nodup n) as Hnd. rewrite Hr, H, filter_app in Hnd. cbn in Hnd. rewrite He in Hnd.
  rewrite <- app_assoc in Hnd. apply NoDup_remove_2 in Hnd. rewrite !in_app_iff in Hnd.
  split; intros Hi; apply Hnd; [left|right; left]; apply filter_In; auto.
Qed.

(** ** Facts used for C59 *)
(** The nodes that follow the root. *)
Inductive follows (root : nat) : nat -> Prop :=
| f_root : follows root root
| f_succ n m : follows root n -> In m (succs g n) -> follows root m.
(** Nothing can happen any more. *)
Definition stuck (s : pstate) : Prop := forall l, stepo s l = None.

Section C59.
Context (root : nat).

Record inv2 (s : pstate) : Prop := Inv2 {
  j_sched : forall k m j, In k (keys s) -> j < kpos k -> nth_error (prog (knode k)) j = Some (ISched m) -> (SCHEDULED <= mst s m)%Z;
  j_follows : forall n, In n (taken s) -> follows root n
}.
Lemma sched_in n k q : nth_error (prog n) k = Some (ISched q) -> In q (succs g n).
Proof.
  intros H. apply nth_error_In in H. unfold PhaseRunModel.prog in H. cbn [app In] in H. repeat (destruct H as [H|H]; [discriminate H|]). rewrite in_app_iff in H.
  assert (Hs : forall st, ~ In (ISched q) (sibwait g fuel n st)).
  { intros st. unfold sibwait. destruct (siblings g fuel n); cbn; try (intros [H'|[]]; discriminate H'). rewrite in_map_iff. intros (x & Hx & _). discriminate Hx. }
  destruct H as [H|[H|H]]; [|discriminate H|rewrite in_map_iff in H; destruct H as (x & Hx & Hi); now injection Hx as ->].
  exfalso. destruct (isnode g n); [|destruct H]. destruct H as [Hi|Hi]; [discriminate Hi|]. rewrite in_app_iff in Hi.
  destruct Hi as [Hi|[Hi|[Hi|[]]]]; try discriminate Hi. destruct (istask g n); [|now apply (Hs READY_TO_END)].
  destruct Hi as [Hi|Hi]; [discriminate Hi|]. rewrite in_app_iff in Hi. destruct Hi as [Hi|[Hi|Hi]]; [now apply (Hs EXECUTING)|discriminate Hi|now apply (Hs EXECUTING)].
Qed.
Lemma set_syncing n k st : nth_error (prog n) k = Some (ISet st) -> (SYNCING <= st)%Z.
Proof.
  intros Ex. assert (In (ESet n st) (full n)) as Hf.
  { destruct (emitted_prefix n (S k)) as [r ->]. rewrite (emitted_S n k _ Ex). apply in_or_app. left. apply in_or_app. right. now left. }
  unfold full in Hf. destruct (isnode g n), (istask g n); cbn in Hf; repeat (destruct Hf as [Hf|Hf]; [try discriminate Hf; injection Hf as <-; vm_compute; discriminate|]); contradiction.
Qed.
Lemma inv2_step s tr s' ev : inv root s tr -> inv2 s -> astep s s' ev -> inv2 s'.
Proof.
  intros Hi [J1 J2] H. assert (SS : (SCHEDULED < SYNCING)%Z) by reflexivity.
  assert (Hmono : forall m, (SCHEDULED <= mst s m)%Z -> (SCHEDULED <= mst s' m)%Z).
  { intros m Hm. destruct H; try congruence.
    - exfalso. destruct Hi as [Ind _ _ _ Iev Im _ _ _]. apply Im in H0. assert (In (ESet n DONE) (filter (of_node n) tr)) as Hf by (apply filter_In; split; [exact H0|cbn; apply Nat.eqb_refl]).
      rewrite Iev, (pos_nth _ _ _ _ _ (nodup_nodes s Ind) H) in Hf. destruct Hf.
    - rewrite H3. unfold upd. destruct (Nat.eqb m n); [apply set_syncing in H0; lia|exact Hm].
    - rewrite H4. unfold upd. destruct (Nat.eqb m q); [lia|exact Hm]. }
  assert (Ht := i_taken root _ _ Hi). assert (Ir := i_root root _ _ Hi).
  constructor.
  - destruct H as [n t Eh Eh' Ek Em Ed|i n k q Ei Eh' Ek Em Ed|i n Ei Emd|i n k x Ei Ex Hns Hsq Hpr Eh' Ek Em Ed|i n k st Ei Ex Eh' Ek Em Ed|i n k q Ei Ex Hq Eh' Ek Em Ed|Eh' Ek Em Ed]; intros y m j Hy Hj Hn.
    + rewrite Ek in Hy. apply in_app_or in Hy as [Hy|[<-|[]]]; [eauto|cbn in Hj; lia].
    + rewrite Ek in Hy. apply lset_in in Hy as [->|Hy]; [|eauto]. apply Hmono. eapply (J1 _ m j (nth_error_In _ _ Ei)); eauto.
    + exfalso. destruct Hi as [Ind _ _ _ Iev Im _ _ _]. apply Im in Emd. assert (In (ESet n DONE) (filter (of_node n) tr)) as Hf by (apply filter_In; split; [exact Emd|cbn; apply Nat.eqb_refl]).
      rewrite Iev, (pos_nth _ _ _ _ _ (nodup_nodes s Ind) Ei) in Hf. destruct Hf.
    + rewrite Ek in Hy. apply lset_in in Hy as [->|Hy]; [|eauto]. apply Hmono. cbn [kpos knode fst snd] in Hj, Hn.
      destruct (Nat.eq_dec j k) as [->|Hne]; [rewrite Ex in Hn; injection Hn as ->; auto|]. apply (J1 _ m j (nth_error_In _ _ Ei)); [cbn; lia|exact Hn].
    + rewrite Ek in Hy. apply lset_in in Hy as [->|Hy]; [|eauto]. apply Hmono. cbn [kpos knode fst snd] in Hj, Hn.
      destruct (Nat.eq_dec j k) as [->|Hne]; [rewrite Ex in Hn; discriminate Hn|]. apply (J1 _ m j (nth_error_In _ _ Ei)); [cbn; lia|exact Hn].
    + rewrite Ek in Hy. apply lset_in in Hy as [->|Hy]; [|eauto]. cbn [kpos knode fst snd] in Hj, Hn.
      destruct (Nat.eq_dec j k) as [->|Hne]; [rewrite Ex in Hn; injection Hn as ->; rewrite Em; rewrite upd_eq; lia|]. apply Hmono. apply (J1 _ m j (nth_error_In _ _ Ei)); [cbn; lia|exact Hn].
    + rewrite Ek in Hy. apply Hmono. eauto.
  - intros m. destruct H as [n t Eh Eh' Ek Em Ed|i n k q Ei Eh' Ek Em Ed|i n Ei Emd|i n k x Ei Ex Hns Hsq Hpr Eh' Ek Em Ed|i n k st Ei Ex Eh' Ek Em Ed|i n k q Ei Ex Hq Eh' Ek Em Ed|Eh' Ek Em Ed]; intros Hm.
    + apply J2. rewrite in_taken in *. rewrite Eh. rewrite Ek, Eh', map_app, in_app_iff in Hm. unfold pends in *. rewrite flat_map_app in Hm. cbn in *. rewrite app_nil_r in Hm. tauto.
    + apply J2. rewrite in_taken in *. rewrite Ek, (lset_nodes _ _ _ _ _ _ _ Ei), Eh' in Hm. destruct (pends_lset _ _ _ _ _ k None Ei) as (a & b & P1 & P2). rewrite P2 in Hm. rewrite P1.
      rewrite !in_app_iff in *. cbn in *. tauto.
    + exfalso. destruct Hi as [Ind _ _ _ Iev Im _ _ _]. apply Im in Emd. assert (In (ESet n DONE) (filter (of_node n) tr)) as Hf by (apply filter_In; split; [exact Emd|cbn; apply Nat.eqb_refl]).
      rewrite Iev, (pos_nth _ _ _ _ _ (nodup_nodes s Ind) Ei) in Hf. destruct Hf.
    + apply J2. rewrite in_taken in *. rewrite Ek, (lset_nodes _ _ _ _ _ _ _ Ei), Eh' in Hm. rewrite (pends_lset_none _ _ _ _ _ Ei) in Hm. exact Hm.
    + apply J2. rewrite in_taken in *. rewrite Ek, (lset_nodes _ _ _ _ _ _ _ Ei), Eh' in Hm. rewrite (pends_lset_none _ _ _ _ _ Ei) in Hm. exact Hm.
    + rewrite in_taken in Hm. rewrite Ek, (lset_nodes _ _ _ _ _ _ _ Ei), Eh' in Hm. destruct (pends_lset _ _ _ _ _ (S k) (Some q) Ei) as (a & b & P1 & P2). rewrite P2 in Hm.
      assert (Hn : follows root n) by (apply J2; rewrite in_taken; left; apply nth_error_In, (in_map knode) in Ei; exact Ei).
      assert (m = q \/ In m (taken s)) as [->|Hm'].
      { rewrite in_taken, P1. rewrite !in_app_iff in *. cbn in *. intuition. }
      * apply (f_succ root n q Hn). eapply sched_in; eauto.
      * now apply J2.
    + apply J2. rewrite in_taken in *. now rewrite Ek, Eh' in Hm.
Qed.
Lemma inv2_run ls : inv2 (fst (run_machine pstep (pinit root) ls)).
Proof.
  assert (G : inv root (fst (run_machine pstep (pinit root) ls)) ([] ++ snd (run_machine pstep (pinit root) ls)) /\ inv2 (fst (run_machine pstep (pinit root) ls))).
  { refine (run_machine_inv pstep (fun s tr => inv root s tr /\ inv2 s) _ ls (pinit root) [] _).
    - intros s tr l [Hi Hj]. unfold PhaseRunModel.pstep. destruct (stepo s l) as [[s' ev]|] eqn:E; cbn [fst snd]; [|rewrite app_nil_r; auto].
      apply step_astep in E. split; [eapply inv_step; eauto|eapply inv2_step; eauto].
    - split; [apply inv_init|]. constructor; [intros k m j []|]. cbn. intros n [->|[]]. constructor. }
  apply G.
Qed.
End C59.
End P.
Print Assumptions C58_predecessors.
Print Assumptions C58_sequence.
Print Assumptions C58_once.
