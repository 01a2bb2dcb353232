(** C55: data access policies, for every history of calls. *)
From Coq Require Import List Bool.
From Verif Require Import Prelude DapModel.
Import ListNotations.

Section Dap.
Context {V : Type}.

(** The last value set, by a history of which the rejected sets are left out. *)
Fixpoint last_set (sets : list V) (d : option V) : option V :=
  match sets with [] => d | v :: r => last_set r (Some v) end.
Fixpoint gsets (h : list (glab V)) : list V :=
  match h with [] => [] | GSet v :: r => v :: gsets r | _ :: r => gsets r end.
Definition grun (h : list (glab V)) := run_machine gstep gtl0 h.

Lemma gtl_before h : forall v0, ~ In GGet h ->
  run_machine gstep (Gtl false v0) h = (Gtl false (last_set (gsets h) v0), []).
Proof.
  induction h as [|l h IH]; intros v0 H; [reflexivity|]. destruct l as [v|]; [|destruct H; now left].
  cbn [run_machine gstep g_locked]. rewrite IH by (intros X; apply H; now right). reflexivity.
Qed.

Definition after_get (v : option V) (l : glab V) : list (out V) :=
  match l with GSet _ => [OErr] | GGet => [OVal v] end.
Lemma gtl_after h : forall v, run_machine gstep (Gtl true v) h = (Gtl true v, flat_map (after_get v) h).
Proof.
  induction h as [|l h IH]; intros v; [reflexivity|].
  cbn [run_machine flat_map]. destruct l; cbn [gstep g_locked g_val]; rewrite IH; reflexivity.
Qed.

(** Up to the first get every set is accepted silently; from then on every get
    returns the value last set before it, and every set is reported. *)
Theorem C55_get_to_lock h1 h2 : ~ In GGet h1 ->
  snd (grun (h1 ++ GGet :: h2)) =
    OVal (last_set (gsets h1) None) :: flat_map (after_get (last_set (gsets h1) None)) h2.
Proof.
  intros H. unfold grun, gtl0. rewrite run_machine_app. rewrite (gtl_before h1 None H). cbn [fst snd app].
  cbn [run_machine gstep g_val]. rewrite gtl_after. reflexivity.
Qed.

(** Simple lock: the history of accepted sets is read off the calls. *)
Fixpoint ssets (locked : bool) (h : list (slab V)) : list V :=
  match h with
  | [] => []
  | SSet v :: r => if locked then ssets locked r else v :: ssets locked r
  | SLock :: r => ssets true r
  | SUnlock :: r => ssets false r
  | _ :: r => ssets locked r
  end.
Fixpoint slocked (locked : bool) (h : list (slab V)) : bool :=
  match h with
  | [] => locked | SLock :: r => slocked true r | SUnlock :: r => slocked false r
  | _ :: r => slocked locked r
  end.
Definition srun (h : list (slab V)) := run_machine sstep sl0 h.

Lemma sl_state h : forall b v,
  fst (run_machine sstep (Sl b v) h) = Sl (slocked b h) (last_set (ssets b h) v).
Proof.
  induction h as [|l h IH]; intros b v; [reflexivity|].
  destruct l; cbn [run_machine sstep s_locked s_val slocked ssets];
    try (specialize (IH b v); destruct (run_machine sstep (Sl b v) h); exact IH).
  - destruct b.
    + specialize (IH true v). destruct (run_machine sstep (Sl true v) h). exact IH.
    + specialize (IH false (Some v0)). destruct (run_machine sstep (Sl false (Some v0)) h). exact IH.
  - specialize (IH true v). destruct (run_machine sstep (Sl true v) h). exact IH.
  - specialize (IH false v). destruct (run_machine sstep (Sl false v) h). exact IH.
Qed.

Theorem C55_simple_lock h :
  snd (sstep (fst (srun h)) SGet) = [OVal (last_set (ssets false h) None)]
  /\ snd (sstep (fst (srun h)) SIsLocked) = [OBool (slocked false h)]
  /\ forall v, snd (sstep (fst (srun h)) (SSet v)) = if slocked false h then [OErr] else [].
Proof.
  unfold srun, sl0. rewrite sl_state. cbn [sstep s_locked s_val snd]. repeat split.
  intros v. now destruct (slocked false h).
Qed.

(** While locked, whatever is called, the value stays. *)
Corollary C55_locked_value_stays h h2 : ~ In SUnlock h2 ->
  snd (sstep (fst (srun (h ++ SLock :: h2))) SGet) = snd (sstep (fst (srun h)) SGet).
Proof.
  intros H. destruct (C55_simple_lock (h ++ SLock :: h2)) as (-> & _).
  destruct (C55_simple_lock h) as (-> & _). do 2 f_equal.
  assert (HS : ssets true h2 = []).
  { induction h2 as [|l h2 IH]; [reflexivity|]. destruct l; cbn [ssets];
      try (apply IH; intros X; apply H; now right). destruct H. now left. }
  assert (HA : forall b, ssets b (h ++ SLock :: h2) = ssets b h).
  { induction h as [|l h IH]; intros b; cbn [app ssets]; [now rewrite HS|].
    destruct l; rewrite ?IH; auto. }
  now rewrite HA.
Qed.

(** Set before get. *)
Fixpoint bsets (h : list (blab V)) : list V :=
  match h with [] => [] | BSet v :: r => v :: bsets r | _ :: r => bsets r end.
Definition brun (h : list (blab V)) := run_machine bstep sbg0 h.
Definition is_nil (l : list V) : bool := match l with [] => true | _ => false end.

Lemma sbg_state h : forall b v,
  fst (run_machine bstep (Sbg b v) h) = Sbg (b || negb (is_nil (bsets h))) (last_set (bsets h) v).
Proof.
  induction h as [|l h IH]; intros b v; [cbn; now rewrite orb_false_r|].
  destruct l; cbn [run_machine bstep bsets last_set is_nil negb];
    try (specialize (IH b v); destruct (run_machine bstep (Sbg b v) h); exact IH).
  specialize (IH true (Some v0)). destruct (run_machine bstep (Sbg true (Some v0)) h). cbn [fst] in *.
  rewrite IH. now rewrite orb_true_r.
Qed.

Theorem C55_set_before_get h :
  (bsets h = [] -> snd (bstep (fst (brun h)) BGet) = [OErr; OVal None]
                   /\ snd (bstep (fst (brun h)) (BTryGet true)) = [OBool false])
  /\ (forall vs v, bsets h = vs ++ [v] ->
        snd (bstep (fst (brun h)) BGet) = [OVal (Some v)]
        /\ snd (bstep (fst (brun h)) (BTryGet true)) = [OVal (Some v); OBool true])
  /\ bstep (fst (brun h)) (BTryGet false) = (fst (brun h), [OExn]).
Proof.
  unfold brun, sbg0. rewrite sbg_state. split; [|split; [|reflexivity]].
  - intros ->. split; reflexivity.
  - intros vs v E. rewrite E.
    assert (HL : forall d, last_set (vs ++ [v]) d = Some v).
    { clear E. induction vs as [|x vs IH]; intros d; [reflexivity|]. apply IH. }
    assert (HN : is_nil (vs ++ [v]) = false) by (clear; destruct vs; reflexivity).
    rewrite HL, HN. split; reflexivity.
Qed.
End Dap.
Print Assumptions C55_get_to_lock.
Print Assumptions C55_simple_lock.
Print Assumptions C55_locked_value_stays.
Print Assumptions C55_set_before_get.

Example C55_example :
  snd (grun [GSet 1; GSet 2; GGet; GSet 3; GGet]) = [OVal (Some 2); OErr; OVal (Some 2)]
  /\ snd (srun [SSet 1; SLock; SSet 2; SGet; SUnlock; SSet 3; SGet]) = [OErr; OVal (Some 1); OVal (Some 3)]
  /\ snd (brun [BGet; BSet 1; BSet 5; BGet]) = [OErr; OVal None; OVal (Some 5)].
Proof. repeat split. Qed.
