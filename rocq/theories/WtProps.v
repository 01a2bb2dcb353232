(** Theorems: no wakeup is lost in wait(cond, ev); what wait_modified of a resource waits for. *)
From Coq Require Import List Bool Arith Lia.
From Verif Require Import Prelude WtModel WtSpec WtProofs.
Import ListNotations.
Local Open Scope nat_scope.

(** *** C196: wait(cond, ev) *)
Section C196.
Context {V : Type} (v0 : V).
(** If whatever makes the condition of a waiting process true also sets the event, the process comes
    back when it next runs while its condition holds: whatever other processes with other conditions
    wait for the same event and clear it. *)
Theorem C196_no_lost h p c g : waits v0 h p = Some (c, g) -> (forall l, In l h -> announced c l) -> c (value v0 h) = true -> says v0 h (Run p) = [p].
Proof.
  intros W N C. destruct (waits_proc v0 _ _ _ _ W) as [w E]. unfold says. cbn [step]. rewrite E. cbn [woken cond next]. rewrite val_eq, C. destruct w; [reflexivity|].
  pose proof (asleep v0 h p _ E N eq_refl) as F. cbn in F. rewrite val_eq in F. congruence.
Qed.
(** A process comes back only when its condition holds. *)
Theorem C196_sound h p q : In q (says v0 h (Run p)) -> q = p /\ exists c g, waits v0 h p = Some (c, g) /\ c (value v0 h) = true.
Proof.
  unfold says. cbn [step]. destruct (procs (after v0 h) p) as [a|] eqn:E; [|intros []]. destruct (woken a); [|intros []]. rewrite val_eq. destruct (cond a (value v0 h)) eqn:C; [|intros []].
  intros [<-|[]]. split; [reflexivity|]. exists (cond a), (next a). split; [now apply proc_waits|exact C].
Qed.
(** A call returns at once exactly if its condition holds. *)
Theorem C196_at_once h p c g : waits v0 h p = None -> says v0 h (Call p c g) = (if c (value v0 h) then [p] else []).
Proof.
  intros W. unfold says. cbn [step]. destruct (procs (after v0 h) p) as [a|] eqn:E; [apply proc_waits in E; congruence|]. rewrite val_eq. now destruct (c (value v0 h)).
Qed.
(** Once the event has been set, a process that was waiting comes back at its next run exactly if its
    condition holds then, whatever has happened in between. *)
Theorem C196_woken t f h p c g : waits v0 h p = Some (c, g) -> snd (f (value v0 h)) = true -> (forall l, In l t -> l <> Run p) ->
  says v0 (t ++ Act f :: h) (Run p) = (if c (value v0 (t ++ Act f :: h)) then [p] else []).
Proof.
  intros W S N. destruct (waits_proc v0 _ _ _ _ W) as [w E].
  assert (X : procs (after v0 (t ++ Act f :: h)) p = Some (Pr true c g)).
  { apply stays_woken; [exact N|]. cbn [after step]. rewrite val_eq. destruct (f (value v0 h)) as [v b]. cbn in S. subst b. cbn. now rewrite E. }
  unfold says. cbn [step]. rewrite X. cbn [woken cond]. rewrite val_eq. now destruct (c (value v0 (t ++ Act f :: h))).
Qed.
End C196.
Print Assumptions C196_no_lost.
Print Assumptions C196_sound.
Print Assumptions C196_at_once.
Print Assumptions C196_woken.
(** A counter: process 1 waits for 1, process 2 for 2; both share the event. *)
Definition inc := Act (fun v : nat => (S v, true)).
Definition h196 := rev [Call 1 (Nat.leb 1) (fun v => v); Call 2 (Nat.leb 2) (fun v => v); inc; Run 2; Run 1; inc].
Example C196_example :
  says 0 (rev [Call 1 (Nat.leb 1) (fun v => v); Call 2 (Nat.leb 2) (fun v => v); inc; Run 2]) (Run 1) = [1]
  /\ waits 0 h196 2 = Some (Nat.leb 2, fun v => v) /\ (forall l, In l h196 -> announced (Nat.leb 2) l) /\ value 0 h196 = 2 /\ says 0 h196 (Run 2) = [2].
Proof.
  split; [reflexivity|]. split; [reflexivity|]. split; [|split; reflexivity]. intros l H. cbn [h196 rev app] in H. repeat (destruct H as [<-|H]; [cbn; auto|]). destruct H.
Qed.
(** A change that does not set the event is not seen. *)
Example C196_limit : says 0 (rev [Call 1 (Nat.leb 1) (fun v => v); Act (fun v => (S v, false))]) (Run 1) = [].
Proof. reflexivity. Qed.

(** *** C197: wait_modified *)
Section C197.
Context {T : Type} (eqb : T -> T -> bool) (t0 : T).
(** Who returns when is what a flag "changed since the last return" says: every change not yet
    taken releases the first process that calls or runs, and only that. *)
Theorem C197_exact h l : rsays eqb t0 h l = returns eqb t0 h l.
Proof. apply rsays_eq. Qed.
(** read() answers the last value written that differed, while not read-only. *)
Theorem C197_content h : rread eqb t0 h = content eqb t0 h.
Proof. apply (r_val eqb t0 _ _ (rinv eqb t0 h)). Qed.
(** There are never more returns than changes. *)
Theorem C197_count h : list_sum (map (fun n => List.length (rsays eqb t0 (skipn (S n) h) (nth n h (ReadOnly true)))) (seq 0 (List.length h))) <= n_changes eqb t0 h.
Proof.
  assert (E : list_sum (map (fun n => List.length (rsays eqb t0 (skipn (S n) h) (nth n h (ReadOnly true)))) (seq 0 (List.length h))) = n_returns eqb t0 h).
  { induction h as [|l h IH]; [reflexivity|]. cbn [List.length seq map list_sum n_returns]. rewrite <- IH, <- seq_shift, map_map. cbn [skipn nth]. now rewrite rsays_eq. }
  rewrite E. pose proof (count eqb t0 h). lia.
Qed.
(** Between two returns the content has changed. *)
Theorem C197_between t h l l' : rsays eqb t0 h l <> [] -> rsays eqb t0 (t ++ l :: h) l' <> [] -> exists t1 w t2, t = t1 ++ w :: t2 /\ changes eqb t0 (t2 ++ l :: h) w = true.
Proof.
  rewrite !rsays_eq. intros A B.
  assert (D : (exists t1 w t2, t = t1 ++ w :: t2 /\ changes eqb t0 (t2 ++ l :: h) w = true) \/ (forall t1 w t2, t = t1 ++ w :: t2 -> changes eqb t0 (t2 ++ l :: h) w = false)).
  { clear B. induction t as [|a t IH]; [right; intros [|? ?] w t2 E; discriminate|]. destruct IH as [(t1 & w & t2 & -> & E)|N].
    - left. exists (a :: t1), w, t2. auto.
    - destruct (changes eqb t0 (t ++ l :: h) a) eqn:Q; [left; exists [], a, t; auto|]. right. intros [|b t1] w t2 [= -> ->]; [exact Q|]. now apply (N t1). }
  destruct D as [D|D]; [exact D|]. exfalso. pose proof (quiet eqb t0 t h l A D) as F. unfold returns in B. destruct (news eqb t0 (t ++ l :: h)) as [fresh wt]. cbn in F. subst fresh. destruct l'; try congruence; rewrite andb_false_r in B; congruence.
Qed.
End C197.
Print Assumptions C197_exact.
Print Assumptions C197_content.
Print Assumptions C197_count.
Print Assumptions C197_between.
Definition h197 := rev [WaitMod 1; WaitMod 2; Write 7].
Example C197_example :
  rsays Nat.eqb 0 h197 (Go 2) = [2] /\ rsays Nat.eqb 0 (Go 2 :: h197) (Go 1) = [] /\ rsays Nat.eqb 0 (Write 8 :: Go 1 :: Go 2 :: h197) (Go 1) = [1]
  /\ rsays Nat.eqb 0 (Write 7 :: Go 1 :: Go 2 :: h197) (Go 1) = [] /\ rsays Nat.eqb 0 (Write 8 :: ReadOnly true :: Go 1 :: Go 2 :: h197) (Go 1) = []
  /\ rsays Nat.eqb 0 [Write 7] (WaitMod 3) = [3] /\ rread Nat.eqb 0 (Write 8 :: ReadOnly true :: h197) = 7.
Proof. repeat split. Qed.
(** One write releases only one of two waiting processes, and two writes before a process runs
    count as one. *)
Example C197_limit : rsays Nat.eqb 0 (Go 2 :: h197) (Go 1) = [] /\ rsays Nat.eqb 0 (WaitMod 3 :: rev [Write 7; Write 8]) (WaitMod 3) = [].
Proof. split; reflexivity. Qed.
