From Coq Require Import List Bool Arith ZArith Lia.
From Verif Require Import Prelude ResourceModel ResourceSpec.
Import ListNotations.
Open Scope Z_scope.

Arguments same : simpl never.
Lemma ckey_eqb_eq a b : ckey_eqb a b = true <-> a = b.
Proof.
  destruct a as [[a1 a2] a3], b as [[b1 b2] b3]. cbn.
  rewrite !andb_true_iff, !Nat.eqb_eq. split; [intros [[-> ->] ->]; auto|intros [= -> -> ->]; auto].
Qed.
Lemma same_sym a b : same a b = same b a.
Proof. apply eq_true_iff_eq. unfold same. rewrite !ckey_eqb_eq. split; congruence. Qed.
Lemma same_refl a : same a a = true.
Proof. unfold same. now apply ckey_eqb_eq. Qed.
Lemma same_eq a b : same a b = true <-> c_key a = c_key b.
Proof. unfold same. apply ckey_eqb_eq. Qed.

(** ** Choosing the highest precedence *)
Lemma highest_spec (s : pool) : forall q best,
  exists q1 q2, best :: q = q1 ++ highest s best (r_prec (heap s best)) q :: q2 /\
    Forall (fun r => r_prec (heap s r) < r_prec (heap s (highest s best (r_prec (heap s best)) q))) q1 /\
    Forall (fun r => r_prec (heap s r) <= r_prec (heap s (highest s best (r_prec (heap s best)) q))) q2.
Proof.
  induction q as [|r q IH]; intros best; cbn [highest].
  - exists [], []. auto.
  - destruct (r_prec (heap s r) >? r_prec (heap s best)) eqn:E.
    + destruct (IH r) as (q1 & q2 & A & B & C). exists (best :: q1), q2.
      split; [cbn; now rewrite A|]. split; [|auto]. constructor; [|auto].
      apply Z.gtb_lt in E. destruct q1 as [|x q1]; cbn in A.
      * injection A as A _. rewrite <- A. lia.
      * injection A as -> _. inversion B; subst. lia.
    + destruct (IH best) as (q1 & q2 & A & B & C).
      remember (highest s best (r_prec (heap s best)) q) as h eqn:Eh. clear Eh.
      assert (E' : r_prec (heap s r) <= r_prec (heap s best)).
      { rewrite Z.gtb_ltb in E. apply Z.ltb_ge in E. lia. }
      destruct q1 as [|x q1]; cbn in A.
      * injection A as A A'. exists [], (r :: q2). split; [cbn; now rewrite A, A'|].
        split; [auto|]. constructor; [|auto]. rewrite <- A. lia.
      * injection A as Ab A. subst x. exists (best :: r :: q1), q2. split; [cbn; now rewrite A|].
        inversion B; subst. split; [|auto]. constructor; [auto|]. constructor; [lia|auto].
Qed.

Lemma ghp_spec (s : pool) q :
  match get_highest_precedence s q with
  | None => q = []
  | Some id => exists q1 q2, q = q1 ++ id :: q2 /\
      Forall (fun r => r_prec (heap s r) < r_prec (heap s id)) q1 /\
      Forall (fun r => r_prec (heap s r) <= r_prec (heap s id)) q2
  end.
Proof. destruct q as [|r q]; cbn; [auto|]. apply highest_spec. Qed.

(** a filter splits where its result splits *)
Lemma filter_split {A} (f : A -> bool) : forall l l1 a l2,
  filter f l = l1 ++ a :: l2 ->
  exists m1 m2, l = m1 ++ a :: m2 /\ filter f m1 = l1 /\ filter f m2 = l2 /\ f a = true.
Proof.
  induction l as [|x l IH]; intros l1 a l2 H; cbn in H.
  - destruct l1; discriminate.
  - destruct (f x) eqn:E.
    + destruct l1 as [|y l1]; cbn in H.
      * injection H as -> H. exists [], l. auto.
      * injection H as -> H. destruct (IH _ _ _ H) as (m1 & m2 & -> & B & C & D).
        exists (y :: m1), m2. cbn. rewrite E, B. auto.
    + destruct (IH _ _ _ H) as (m1 & m2 & -> & B & C & D).
      exists (x :: m1), m2. cbn. rewrite E. auto.
Qed.

(** ** Writing *)
Lemma write_heap_other s id v j : j <> id -> heap (write s id v) j = heap s j.
Proof.
  intros H. unfold write. destruct (r_ro _); [auto|].
  destruct (r_val _) as [v0|]; [destruct (v0 =? v)|]; cbn; auto; now rewrite upd_neq.
Qed.
Lemma write_keeps s id v : forall j,
  r_name (heap (write s id v) j) = r_name (heap s j) /\
  r_scope (heap (write s id v) j) = r_scope (heap s j) /\
  r_prec (heap (write s id v) j) = r_prec (heap s j) /\
  r_ro (heap (write s id v) j) = r_ro (heap s j).
Proof.
  intros j. destruct (Nat.eq_dec j id) as [->|H]; [|now rewrite write_heap_other].
  unfold write. destruct (r_ro (heap s id)) eqn:E; [rewrite E; auto|].
  destruct (r_val _) as [v0|]; [destruct (v0 =? v)|]; cbn; rewrite ?upd_eq; cbn; rewrite ?E; auto.
Qed.
Lemma write_rtab s id v : rtab (write s id v) = rtab s.
Proof.
  unfold write. destruct (r_ro _); [auto|].
  destruct (r_val _) as [v0|]; [destruct (v0 =? v)|]; reflexivity.
Qed.
Lemma write_cfg s id v : cfg (write s id v) = cfg s.
Proof.
  unfold write. destruct (r_ro _); [auto|].
  destruct (r_val _) as [v0|]; [destruct (v0 =? v)|]; reflexivity.
Qed.
Lemma write_next s id v : next (write s id v) = next s.
Proof.
  unfold write. destruct (r_ro _); [auto|].
  destruct (r_val _) as [v0|]; [destruct (v0 =? v)|]; reflexivity.
Qed.
Lemma write_val s id v : r_ro (heap s id) = false -> r_val (heap (write s id v) id) = Some v.
Proof.
  intros H. unfold write. rewrite H. destruct (r_val (heap s id)) as [v0|] eqn:E.
  - destruct (Z.eqb_spec v0 v); subst; [auto|]. cbn. now rewrite upd_eq.
  - cbn. now rewrite upd_eq.
Qed.
Lemma write_ro s id v : r_ro (heap s id) = true -> write s id v = s.
Proof. intros H. unfold write. now rewrite H. Qed.

(** ** Read-only resources *)
Section RO.
Context (smatch : nat -> nat -> bool).
Definition frozen (s : pool) (id : nat) (v : option Z) : Prop :=
  (id < next s)%nat /\ r_ro (heap s id) = true /\ r_val (heap s id) = v.
Lemma frozen_write s id v i w : frozen s id v -> frozen (write s i w) id v.
Proof.
  intros (A & B & C). split; [now rewrite write_next|].
  destruct (Nat.eq_dec id i) as [->|H].
  - now rewrite write_ro.
  - now rewrite write_heap_other.
Qed.
Lemma frozen_new s id v n sc : frozen s id v -> frozen (fst (new_rsrc s n sc)) id v.
Proof.
  intros (A & B & C). unfold frozen. cbn. rewrite upd_neq by lia. repeat split; auto.
Qed.
Lemma frozen_prec s id v i p : frozen s id v -> frozen (set_heap s i (with_prec (heap s i) p)) id v.
Proof.
  intros (A & B & C). unfold frozen. cbn. destruct (Nat.eq_dec id i) as [->|H].
  - rewrite upd_eq. cbn. auto.
  - rewrite upd_neq by auto. auto.
Qed.
Lemma frozen_step s id v o : o <> SetRW id -> frozen s id v -> frozen (rstep smatch s o) id v.
Proof.
  intros HO H. destruct o as [sc n w|sc n w|n sc|i w|i p|i|i|i b|c d b i f w]; cbn [rstep].
  - unfold rdb_set. pose proof (frozen_new s id v n sc H) as H1.
    destruct (new_rsrc s n sc) as [s1 i1]. cbn [fst] in H1.
    apply (frozen_write s1 id v i1 w) in H1. exact H1.
  - unfold write_by_name. destruct (get_by_name smatch s sc n); [now apply frozen_write|auto].
  - now apply frozen_new.
  - now apply frozen_write.
  - now apply frozen_prec.
  - destruct H as (A & B & C). unfold frozen, set_ro. cbn.
    destruct (Nat.eq_dec id i) as [->|HN]; [rewrite upd_eq; cbn; auto|rewrite upd_neq by auto; auto].
  - destruct H as (A & B & C). unfold frozen, set_ro. cbn.
    rewrite upd_neq by congruence. auto.
  - exact H.
  - unfold config_set. destruct (cfg s (c, i, f)) as [j|].
    + assert (H1 : frozen (write (set_heap s j (with_prec (heap s j)
         (if b then default_precedence - d else default_precedence))) j w) id v)
        by (apply frozen_write, frozen_prec, H).
      unfold set_priority_name. destruct (existsb _ _); exact H1.
    + pose proof (frozen_new s id v f i H) as H1.
      destruct (new_rsrc s f i) as [s1 j]. cbn [fst] in H1.
      set (s2 := Pool (heap s1) (next s1) (rtab s1) _).
      assert (H2 : frozen s2 id v) by exact H1.
      apply (frozen_prec s2 id v j (if b then default_precedence - d else default_precedence)) in H2.
      apply (frozen_write _ id v j w) in H2. exact H2.
Qed.
Lemma frozen_run ops : forall s id v, ~ In (SetRW id) ops -> frozen s id v ->
  frozen (fold_left (rstep smatch) ops s) id v.
Proof.
  induction ops as [|o ops IH]; intros s id v HO H; cbn; [auto|].
  apply IH; [intros X; apply HO; now right|]. apply frozen_step; [|auto].
  intros ->. apply HO. now left.
Qed.
End RO.

(** ** Resource database *)
Section RDB.
Context (smatch : nat -> nat -> bool).
Definition rdb_rop (o : rdb_op) : rop :=
  match o with DSet sc n v => RdbSet sc n v | DWrite p n v => WriteByName p n v end.
(** [ids l] lists the positions of the values named [n] *)
Definition positions (n : nat) (l : list rval) : list nat :=
  filter (fun i => match nth_error l i with Some r => Nat.eqb (v_name r) n | None => false end)
         (seq 0 (length l)).
Record RdbInv (s : pool) (l : list rval) : Prop := {
  di_next : next s = length l;
  di_heap : forall i r, nth_error l i = Some r ->
     r_name (heap s i) = v_name r /\ r_scope (heap s i) = v_scope r /\
     r_prec (heap s i) = default_precedence /\
     r_val (heap s i) = Some (v_val r) /\ r_ro (heap s i) = false;
  di_rtab : forall n, rtab s n = positions n l
}.

Lemma positions_app n l r :
  positions n (l ++ [r]) = positions n l ++ (if Nat.eqb (v_name r) n then [length l] else []).
Proof.
  unfold positions. rewrite app_length. cbn [length]. rewrite seq_app, filter_app. cbn [seq Nat.add].
  f_equal.
  - apply filter_ext_in. intros i Hi. apply in_seq in Hi.
    rewrite nth_error_app1 by lia. reflexivity.
  - cbn [filter]. rewrite nth_error_app2, Nat.sub_diag by lia. cbn. reflexivity.
Qed.

Lemma highest_flat (s : pool) p : forall q best,
  Forall (fun r => r_prec (heap s r) = p) q -> highest s best p q = best.
Proof.
  induction q as [|r q IH]; intros best H; cbn; [auto|]. inversion H; subst.
  assert (r_prec (heap s r) >? r_prec (heap s r) = false) as ->.
  { rewrite Z.gtb_ltb. apply Z.ltb_irrefl. }
  now apply IH.
Qed.

(** the first visible value *)
Fixpoint findi (f : rval -> bool) (i : nat) (l : list rval) : option nat :=
  match l with [] => None | r :: l => if f r then Some i else findi f (S i) l end.
Lemma findi_spec f : forall l i,
  match findi f i l with
  | Some j => exists k r, j = (i + k)%nat /\ nth_error l k = Some r /\ f r = true /\ find f l = Some r
  | None => find f l = None
  end.
Proof.
  induction l as [|r l IH]; intros i; cbn; [auto|].
  destruct (f r) eqn:E.
  - exists 0%nat, r. rewrite Nat.add_0_r. auto.
  - specialize (IH (S i)). destruct (findi f (S i) l); [|auto].
    destruct IH as (k & r' & -> & A & B & C). exists (S k), r'. split; [lia|auto].
Qed.

Lemma hd_filter_findi (g : nat -> bool) f : forall l i,
  (forall k r, nth_error l k = Some r -> g (i + k)%nat = f r) ->
  hd_error (filter g (seq i (length l))) = findi f i l.
Proof.
  induction l as [|r l IH]; intros i H; cbn [length seq filter findi]; [auto|].
  pose proof (H 0%nat r eq_refl) as H0. rewrite Nat.add_0_r in H0. rewrite H0.
  destruct (f r); [reflexivity|]. apply IH. intros k r' Hk.
  specialize (H (S k) r' Hk). rewrite <- H. f_equal. lia.
Qed.

Lemma filter_filter {A} (f g : A -> bool) l : filter f (filter g l) = filter (fun x => g x && f x) l.
Proof.
  induction l as [|a l IH]; cbn; [auto|]. destruct (g a); cbn; [|auto].
  destruct (f a); cbn; now rewrite IH.
Qed.

Lemma rdb_get s l path n : RdbInv s l ->
  get_by_name smatch s path n = findi (visible smatch path n) 0 l.
Proof.
  intros [A B C]. unfold get_by_name, lookup_name. rewrite C. unfold positions.
  rewrite filter_filter.
  rewrite <- (hd_filter_findi (fun x => match nth_error l x with
       | Some r => Nat.eqb (v_name r) n | None => false end && smatch (r_scope (heap s x)) path)).
  - match goal with |- get_highest_precedence s ?q = _ => set (q0 := q) end.
    assert (HF : Forall (fun r => r_prec (heap s r) = default_precedence) q0).
    { apply Forall_forall. intros x Hx. unfold q0 in Hx. apply filter_In in Hx as [_ Hx].
      destruct (nth_error l x) as [r|] eqn:E; [|discriminate]. apply (B x r E). }
    clearbody q0. destruct q0 as [|x q0]; cbn; [auto|]. inversion HF; subst.
    rewrite H1, highest_flat; auto.
  - intros k r Hk. cbn [Nat.add]. rewrite Hk. unfold visible.
    destruct (B k r Hk) as (_ & -> & _). reflexivity.
Qed.

Lemma write_first_nth path n v : forall l k r i,
  findi (visible smatch path n) i l = Some (i + k)%nat -> nth_error l k = Some r ->
  write_first smatch path n v l = firstn k l ++ RVal (v_name r) (v_scope r) v :: skipn (S k) l.
Proof.
  induction l as [|x l IH]; intros k r i H Hk; cbn in *; [destruct k; discriminate|].
  destruct (visible smatch path n x) eqn:E.
  - injection H as H. assert (k = 0%nat) by lia. subst. cbn in *. injection Hk as ->. reflexivity.
  - destruct k as [|k]; cbn in *.
    + exfalso. pose proof (findi_spec (visible smatch path n) l (S i)) as FS. rewrite H in FS.
      destruct FS as (k & r' & E1 & _). lia.
    + f_equal. apply (IH k r (S i)); [|auto]. rewrite H. f_equal. lia.
Qed.
Lemma write_first_none path n v : forall l i,
  findi (visible smatch path n) i l = None -> write_first smatch path n v l = l.
Proof.
  induction l as [|x l IH]; intros i H; cbn in *; [auto|].
  destruct (visible smatch path n x); [discriminate|]. f_equal. eapply IH; eauto.
Qed.

Lemma nth_replace {A} (l : list A) k (r y : A) : nth_error l k = Some r -> forall i,
  nth_error (firstn k l ++ y :: skipn (S k) l) i = if Nat.eqb i k then Some y else nth_error l i.
Proof.
  intros H. assert (HL : (k < length l)%nat) by (apply nth_error_Some; congruence).
  intros i. destruct (Nat.eqb_spec i k) as [->|Hne].
  - rewrite nth_error_app2; rewrite firstn_length_le by lia; [|lia]. now rewrite Nat.sub_diag.
  - destruct (Nat.lt_ge_cases i k).
    + rewrite nth_error_app1 by (rewrite firstn_length_le by lia; lia).
      rewrite <- (firstn_skipn k l) at 2. rewrite nth_error_app1; auto.
      rewrite firstn_length_le by lia. lia.
    + rewrite nth_error_app2 by (rewrite firstn_length_le by lia; lia).
      rewrite firstn_length_le by lia. destruct (i - k)%nat as [|m] eqn:E; [lia|].
      cbn [nth_error]. rewrite <- (firstn_skipn (S k) l) at 2.
      rewrite nth_error_app2 by (rewrite firstn_length_le by lia; lia).
      rewrite firstn_length_le by lia. f_equal. lia.
Qed.

Lemma rdb_step s l o : RdbInv s l -> RdbInv (rstep smatch s (rdb_rop o)) (rdb_spec1 smatch l o).
Proof.
  intros HI. pose proof HI as [A B C].
  destruct o as [sc n v|path n v]; cbn [rdb_rop rstep rdb_spec1].
  - unfold rdb_set. cbn [new_rsrc].
    set (s1 := Pool _ _ _ _). set (s2 := write s1 (next s) v).
    assert (E : r_name (heap s2 (next s)) = n).
    { unfold s2. rewrite (proj1 (write_keeps s1 (next s) v (next s))). cbn. now rewrite upd_eq. }
    constructor.
    + cbn [pool_set next]. unfold s2. rewrite write_next. cbn. rewrite app_length, A. cbn. lia.
    + intros i r H. cbn [pool_set heap].
      destruct (Nat.eq_dec i (next s)) as [->|HN].
      * rewrite nth_error_app2, A, Nat.sub_diag in H by lia. cbn in H. injection H as <-.
        destruct (write_keeps s1 (next s) v (next s)) as (K1 & K2 & K3 & K4). fold s2 in K1, K2, K3, K4.
        rewrite K2, K3, K4. cbn. rewrite upd_eq. cbn. repeat split; auto.
        unfold s2. apply write_val. cbn. now rewrite upd_eq.
      * unfold s2. rewrite write_heap_other by auto. cbn. rewrite upd_neq by auto.
        apply B. rewrite nth_error_app1 in H; auto.
        assert (i < length (l ++ [RVal n sc v]))%nat by (apply nth_error_Some; congruence).
        rewrite app_length in H0. cbn in H0. lia.
    + intros m. cbn [pool_set rtab]. rewrite E. unfold s2. rewrite write_rtab. cbn [s1 rtab].
      rewrite positions_app. cbn [v_name]. unfold upd.
      rewrite (Nat.eqb_sym n m). destruct (Nat.eqb_spec m n) as [->|]; rewrite C; [now rewrite A|now rewrite app_nil_r].
  - unfold write_by_name. rewrite (rdb_get s l path n HI).
    pose proof (findi_spec (visible smatch path n) l 0) as FS.
    destruct (findi (visible smatch path n) 0 l) as [j|] eqn:EF.
    + destruct FS as (k & r & -> & Hk & _ & _). cbn [Nat.add] in *.
      rewrite (write_first_nth path n v l k r 0 EF Hk).
      pose proof (nth_replace l k r (RVal (v_name r) (v_scope r) v) Hk) as NR.
      assert (HL : (k < length l)%nat) by (apply nth_error_Some; congruence).
      constructor.
      * rewrite write_next, A, app_length, firstn_length_le by lia. cbn [length].
        rewrite skipn_length. lia.
      * intros i x Hx. rewrite NR in Hx.
        destruct (write_keeps s k v i) as (-> & -> & -> & ->).
        destruct (Nat.eqb_spec i k) as [->|HN].
        -- injection Hx as <-. cbn. destruct (B k r Hk) as (B1 & B2 & B3 & B4 & B5).
           repeat split; auto. now apply write_val.
        -- rewrite write_heap_other by auto. now apply B.
      * intros m. rewrite write_rtab, C. unfold positions.
        replace (length (firstn k l ++ _ :: skipn (S k) l)) with (length l).
        2:{ rewrite app_length, firstn_length_le by lia. cbn [length]. rewrite skipn_length. lia. }
        apply filter_ext. intros i. rewrite NR. destruct (Nat.eqb_spec i k) as [->|]; [|auto].
        now rewrite Hk.
    + now rewrite (write_first_none path n v l 0).
Qed.

Lemma rdb_run ops : RdbInv (rrun smatch (map rdb_rop ops)) (rdb_spec smatch ops).
Proof.
  unfold rrun, rdb_spec.
  assert (G : forall s l, RdbInv s l ->
    RdbInv (fold_left (rstep smatch) (map rdb_rop ops) s) (fold_left (rdb_spec1 smatch) ops l)).
  { induction ops as [|o ops IH]; intros s l H; cbn; [auto|]. apply IH, rdb_step, H. }
  apply G. constructor; cbn; auto. intros [|i] r; discriminate.
Qed.
End RDB.

(** ** Configuration database *)
Section CFG.
Context (smatch : nat -> nat -> bool).
Definition cset_rop (e : cset) : rop :=
  ConfigSet (c_ctx e) (c_depth e) (c_build e) (c_inst e) (c_field e) (c_val e).

Definition field_order (hist : list cset) (f : nat) : list cset :=
  filter (fun e => Nat.eqb (c_field e) f) (order hist).

Lemma current_app hist e :
  current (hist ++ [e]) = filter (fun x => negb (same e x)) (current hist) ++ [e].
Proof.
  induction hist as [|x h IH]; cbn [app current]; [reflexivity|].
  rewrite existsb_app. cbn [existsb]. rewrite orb_false_r.
  destruct (existsb (same x) h); cbn [orb].
  - exact IH.
  - cbn [filter]. rewrite (same_sym e x). destruct (same x e); cbn [negb app]; rewrite IH; reflexivity.
Qed.
Lemma times_app hist e x : times (hist ++ [e]) x = (times hist x + if same x e then 1 else 0)%nat.
Proof.
  unfold times. rewrite filter_app, app_length. cbn [filter]. destruct (same x e); reflexivity.
Qed.
Lemma in_current hist x : In x (current hist) -> In x hist.
Proof.
  induction hist as [|y h IH]; cbn; [auto|]. destruct (existsb (same y) h); cbn; tauto.
Qed.
Lemma current_has hist x : In x hist -> exists y, In y (current hist) /\ same x y = true.
Proof.
  induction hist as [|e h IH] using rev_ind; [intros []|]. rewrite current_app. intros H.
  assert (D : In x h \/ x = e).
  { apply in_app_or in H as [H|[H|[]]]; auto. }
  destruct D as [D| ->].
  - destruct (IH D) as (y & Hy & E). destruct (same e y) eqn:Ey.
    + exists e. split; [apply in_or_app; right; now left|]. rewrite same_eq in *. congruence.
    + exists y. split; [|auto]. apply in_or_app. left. apply filter_In. rewrite Ey. auto.
  - exists e. split; [apply in_or_app; right; now left|apply same_refl].
Qed.
Lemma in_order hist x : In x (order hist) <-> In x (current hist).
Proof.
  unfold order. rewrite in_app_iff, <- in_rev, !filter_In.
  destruct (Nat.eqb (times hist x) 1); cbn; tauto.
Qed.
Lemma times0 hist e : existsb (same e) hist = false -> times hist e = 0%nat.
Proof.
  unfold times. induction hist as [|x h IH]; cbn [existsb filter]; [auto|].
  destruct (same e x); cbn; [discriminate|auto].
Qed.
Lemma times_pos hist e : existsb (same e) hist = true -> (1 <= times hist e)%nat.
Proof.
  intros H. apply existsb_exists in H as (x & Hx & E). unfold times.
  assert (In x (filter (same e) hist)) by (apply filter_In; auto).
  destruct (filter (same e) hist); [destruct H|cbn; lia].
Qed.
Lemma filter_all {A} (f : A -> bool) l : (forall x, In x l -> f x = true) -> filter f l = l.
Proof.
  induction l as [|a l IH]; intros H; cbn; [auto|]. rewrite (H a (or_introl eq_refl)).
  f_equal. apply IH. intros; apply H; now right.
Qed.
Lemma filter_comm {A} (f g : A -> bool) l : filter f (filter g l) = filter g (filter f l).
Proof.
  rewrite !filter_filter. apply filter_ext. intros. apply andb_comm.
Qed.
Lemma filter_rev' {A} (f : A -> bool) l : filter f (rev l) = rev (filter f l).
Proof.
  induction l as [|a l IH]; cbn; [auto|]. rewrite filter_app, IH. cbn.
  destruct (f a); cbn; [auto|now rewrite app_nil_r].
Qed.

Lemma order_new hist e : existsb (same e) hist = false -> order (hist ++ [e]) = e :: order hist.
Proof.
  intros H. unfold order. rewrite current_app.
  assert (N : forall x, In x (current hist) -> same e x = false).
  { intros x Hx. apply in_current in Hx. apply not_true_iff_false. intros E.
    assert (existsb (same e) hist = true) by (apply existsb_exists; eauto). congruence. }
  rewrite (filter_all (fun x => negb (same e x))) by (intros x Hx; now rewrite (N x Hx)).
  rewrite !filter_app. cbn [filter]. rewrite (times_app hist e e), same_refl, (times0 hist e H).
  cbn [Nat.add Nat.eqb negb]. rewrite rev_app_distr. cbn [rev app]. rewrite app_nil_r.
  f_equal. f_equal; [f_equal|]; apply filter_ext_in; intros x Hx;
    rewrite times_app, (same_sym x e), (N x Hx), Nat.add_0_r; reflexivity.
Qed.
Lemma order_again hist e : existsb (same e) hist = true ->
  order (hist ++ [e]) = filter (fun x => negb (same e x)) (order hist) ++ [e].
Proof.
  intros H. unfold order. rewrite current_app. rewrite !filter_app. cbn [filter].
  rewrite (times_app hist e e), same_refl. pose proof (times_pos hist e H) as TP.
  destruct (Nat.eqb_spec (times hist e + 1) 1) as [|_]; [lia|]. cbn [negb].
  rewrite app_nil_r. rewrite filter_rev'. rewrite !app_assoc. f_equal.
  assert (N : forall x, In x (filter (fun x => negb (same e x)) (current hist)) ->
    times (hist ++ [e]) x = times hist x).
  { intros x Hx. apply filter_In in Hx as [_ Hx]. rewrite times_app, (same_sym x e).
    destruct (same e x); [discriminate|lia]. }
  rewrite (filter_comm (fun x => negb (same e x)) (fun e0 => Nat.eqb (times hist e0) 1)).
  rewrite (filter_comm (fun x => negb (same e x)) (fun e0 => negb (Nat.eqb (times hist e0) 1))).
  f_equal; [f_equal|]; apply filter_ext_in; intros x Hx; now rewrite (N x Hx).
Qed.

Lemma order_nodup hist : NoDup (map c_key (order hist)).
Proof.
  induction hist as [|e h IH] using rev_ind; [constructor|].
  destruct (existsb (same e) h) eqn:E.
  - rewrite order_again, map_app by auto. cbn [map].
    apply NoDup_rev in IH. rewrite <- (rev_involutive (_ ++ _)). apply NoDup_rev.
    rewrite rev_app_distr. cbn [rev app]. constructor.
    + rewrite <- in_rev. intros X. apply in_map_iff in X as (x & Ex & Hx).
      apply filter_In in Hx as [_ Hx]. assert (same e x = true) by (apply same_eq; auto).
      rewrite H in Hx. discriminate.
    + apply NoDup_rev. apply NoDup_rev in IH. rewrite rev_involutive in IH.
      clear E. induction (order h) as [|a l IHl]; cbn; [constructor|].
      inversion IH; subst. destruct (same e a); cbn; auto. constructor; auto.
      intros X. apply H1. apply in_map_iff in X as (x & Ex & Hx). apply in_map_iff.
      exists x. apply filter_In in Hx as [Hx _]. auto.
  - rewrite order_new by auto. cbn. constructor; [|auto].
    intros X. apply in_map_iff in X as (x & Ex & Hx). apply in_order, in_current in Hx.
    assert (existsb (same e) h = true) by (apply existsb_exists; exists x; split; [auto|now apply same_eq]).
    congruence.
Qed.

Definition idof (s : pool) (e : cset) : nat :=
  match cfg s (c_key e) with Some i => i | None => 0%nat end.
Record CfgInv (s : pool) (hist : list cset) : Prop := {
  ci_some : forall e, In e hist -> cfg s (c_key e) <> None;
  ci_only : forall k, (forall e, In e hist -> c_key e <> k) -> cfg s k = None;
  ci_bound : forall k i, cfg s k = Some i -> (i < next s)%nat;
  ci_inj : forall k k' i, cfg s k = Some i -> cfg s k' = Some i -> k = k';
  ci_heap : forall e i, In e (current hist) -> cfg s (c_key e) = Some i ->
     r_name (heap s i) = c_field e /\ r_scope (heap s i) = c_inst e /\
     r_prec (heap s i) = c_prec e /\ r_val (heap s i) = Some (c_val e) /\ r_ro (heap s i) = false;
  ci_rtab : forall f, rtab s f = map (idof s) (field_order hist f)
}.

Lemma field_order_new hist e f : existsb (same e) hist = false ->
  field_order (hist ++ [e]) f =
  if Nat.eqb (c_field e) f then e :: field_order hist f else field_order hist f.
Proof. intros H. unfold field_order. rewrite order_new by auto. reflexivity. Qed.
Lemma field_order_again hist e f : existsb (same e) hist = true ->
  field_order (hist ++ [e]) f =
  if Nat.eqb (c_field e) f then filter (fun x => negb (same e x)) (field_order hist f) ++ [e]
  else field_order hist f.
Proof.
  intros H. unfold field_order. rewrite order_again, filter_app by auto. cbn [filter].
  rewrite filter_comm. destruct (Nat.eqb_spec (c_field e) f) as [E|E]; [auto|].
  rewrite app_nil_r. apply filter_all. intros x Hx. apply filter_In in Hx as [_ Hx].
  apply Nat.eqb_eq in Hx. destruct (same e x) eqn:Es; [|auto].
  apply same_eq in Es. unfold c_key in Es. congruence.
Qed.

Lemma remove_first_filter (id : cset -> nat) e : forall l,
  NoDup (map c_key l) ->
  (forall x, In x l -> id x = id e <-> same e x = true) ->
  remove_first (id e) (map id l) = map id (filter (fun x => negb (same e x)) l).
Proof.
  induction l as [|x l IH]; intros HN HE; cbn; [auto|]. inversion HN; subst.
  destruct (Nat.eqb_spec (id x) (id e)) as [E|E].
  - apply HE in E; [|now left]. rewrite E. cbn [negb]. f_equal. symmetry. apply filter_all.
    intros y Hy. destruct (same e y) eqn:Ey; [|auto]. exfalso. apply H1.
    apply same_eq in E, Ey. rewrite <- E, Ey. apply in_map. auto.
  - destruct (same e x) eqn:Ex; [exfalso; apply E, HE; [now left|auto]|]. cbn. f_equal.
    apply IH; auto. intros; apply HE; now right.
Qed.

Lemma set_heap_other s i r j : j <> i -> heap (set_heap s i r) j = heap s j.
Proof. intros; cbn; now rewrite upd_neq. Qed.

Lemma cfg_step s hist e : CfgInv s hist -> CfgInv (rstep smatch s (cset_rop e)) (hist ++ [e]).
Proof.
  intros HI. pose proof HI as [SO ON BO IN HE RT]. cbn [rstep cset_rop]. unfold config_set.
  fold (c_key e).
  assert (EP : (if c_build e then default_precedence - c_depth e else default_precedence) = c_prec e)
    by reflexivity.
  rewrite EP. destruct (cfg s (c_key e)) as [id|] eqn:EC.
  - (* set again *)
    assert (EX : existsb (same e) hist = true).
    { destruct (existsb (same e) hist) eqn:EX; [auto|]. exfalso.
      rewrite ON in EC; [discriminate|]. intros x Hx Ek.
      assert (existsb (same e) hist = true); [|congruence].
      apply existsb_exists. exists x. split; [auto|]. apply same_eq. auto. }
    assert (exists e0, In e0 (current hist) /\ same e e0 = true) as (e0 & He0 & Ee0).
    { apply existsb_exists in EX as (x & Hx & Ex). destruct (current_has hist x Hx) as (y & Hy & Ey).
      exists y. split; [auto|]. rewrite same_eq in *. congruence. }
    apply same_eq in Ee0.
    destruct (HE e0 id He0) as (H1 & H2 & H3 & H4 & H5); [congruence|].
    set (s1 := set_heap s id (with_prec (heap s id) (c_prec e))).
    assert (K := write_keeps s1 id (c_val e)).
    set (s2 := write s1 id (c_val e)) in *.
    assert (C2 : cfg s2 = cfg s) by (unfold s2; now rewrite write_cfg).
    assert (N2 : next s2 = next s) by (unfold s2; now rewrite write_next).
    assert (R2 : rtab s2 = rtab s) by (unfold s2; now rewrite write_rtab).
    assert (HO : forall j, j <> id -> heap s2 j = heap s j).
    { intros j Hj. unfold s2. rewrite write_heap_other by auto. now apply set_heap_other. }
    assert (Hid : r_name (heap s2 id) = c_field e /\ r_scope (heap s2 id) = c_inst e /\
      r_prec (heap s2 id) = c_prec e /\ r_val (heap s2 id) = Some (c_val e) /\ r_ro (heap s2 id) = false).
    { destruct (K id) as (-> & -> & -> & ->).
      assert (V : r_val (heap s2 id) = Some (c_val e)).
      { unfold s2. apply write_val. unfold s1. cbn. rewrite upd_eq. exact H5. }
      rewrite V. unfold s1. cbn. rewrite upd_eq. cbn. unfold c_key in Ee0. repeat split; congruence. }
    assert (FE : forall x, In x (field_order hist (c_field e)) -> idof s x = idof s e <-> same e x = true).
    { intros x Hx. unfold idof. rewrite EC. apply filter_In in Hx as [Hx _].
      apply in_order, in_current in Hx. pose proof (SO x Hx) as SX.
      destruct (cfg s (c_key x)) as [j|] eqn:EJ; [|congruence]. rewrite same_eq. split.
      - intros ->. symmetry. eapply IN; eauto.
      - intros E. rewrite E in EC. congruence. }
    unfold set_priority_name. destruct Hid as (HN & Hid). rewrite HN, R2, RT.
    assert (EXQ : existsb (Nat.eqb id) (map (idof s) (field_order hist (c_field e))) = true).
    { apply existsb_exists. exists id. split; [|apply Nat.eqb_refl].
      apply in_map_iff. exists e0. split.
      - unfold idof. rewrite <- Ee0, EC. reflexivity.
      - apply filter_In. split; [now apply in_order|]. unfold c_key in Ee0.
        apply Nat.eqb_eq. congruence. }
    rewrite EXQ.
    assert (RF : remove_first id (map (idof s) (field_order hist (c_field e)))
      = map (idof s) (filter (fun x => negb (same e x)) (field_order hist (c_field e)))).
    { replace id with (idof s e) at 1 by (unfold idof; now rewrite EC).
      apply remove_first_filter; [|exact FE].
      unfold field_order. pose proof (order_nodup hist) as ND. clear -ND.
      induction (order hist) as [|a l IH]; cbn; [constructor|]. inversion ND; subst.
      destruct (Nat.eqb (c_field a) (c_field e)); auto. cbn. constructor; auto.
      intros X. apply H1. apply in_map_iff in X as (y & Ey & Hy). apply filter_In in Hy as [Hy _].
      rewrite <- Ey. now apply in_map. }
    rewrite RF. constructor; cbn [cfg next heap rtab].
    + intros x Hx. rewrite C2. apply in_app_or in Hx as [Hx|[<-|[]]]; [auto|congruence].
    + intros k Hk. rewrite C2. apply ON. intros x Hx. apply Hk. apply in_or_app. auto.
    + intros k i Hk. rewrite N2. rewrite C2 in Hk. eauto.
    + intros k k' i. rewrite C2. apply IN.
    + intros x i Hx Hc. rewrite C2 in Hc. rewrite current_app in Hx.
      apply in_app_or in Hx as [Hx|[<-|[]]].
      * apply filter_In in Hx as [Hx Hne]. assert (i <> id).
        { intros ->. assert (c_key x = c_key e) by (eapply IN; eauto).
          assert (same e x = true) by (apply same_eq; auto). rewrite H0 in Hne. discriminate. }
        rewrite HO by auto. auto.
      * assert (i = id) by congruence. subst. auto.
    + intros f. rewrite field_order_again by auto. unfold upd.
      rewrite Nat.eqb_sym. destruct (Nat.eqb_spec (c_field e) f) as [<-|Hf].
      * rewrite map_app. cbn [map]. f_equal.
        -- apply map_ext. intros x. unfold idof. cbn [cfg]. now rewrite C2.
        -- unfold idof. cbn [cfg]. rewrite C2, EC. reflexivity.
      * rewrite RT. apply map_ext. intros x. unfold idof. cbn [cfg]. now rewrite C2.
  - (* a new key *)
    assert (EX : existsb (same e) hist = false).
    { destruct (existsb (same e) hist) eqn:EX; [|auto]. exfalso.
      apply existsb_exists in EX as (x & Hx & Ex). apply same_eq in Ex.
      apply (SO x Hx). congruence. }
    cbn [new_rsrc]. cbn [heap next rtab cfg].
    set (id := next s) in *.
    set (s1 := set_heap _ id _).
    assert (K := write_keeps s1 id (c_val e)).
    set (s2 := write s1 id (c_val e)) in *.
    assert (C2 : cfg s2 = fun k => if ckey_eqb k (c_key e) then Some id else cfg s k)
      by (unfold s2; now rewrite write_cfg).
    assert (N2 : next s2 = S id) by (unfold s2; now rewrite write_next).
    assert (R2 : rtab s2 = rtab s) by (unfold s2; now rewrite write_rtab).
    assert (HO : forall j, j <> id -> heap s2 j = heap s j).
    { intros j Hj. unfold s2. rewrite write_heap_other by auto. unfold s1. cbn.
      now rewrite !upd_neq by auto. }
    assert (Hid : r_name (heap s2 id) = c_field e /\ r_scope (heap s2 id) = c_inst e /\
      r_prec (heap s2 id) = c_prec e /\ r_val (heap s2 id) = Some (c_val e) /\ r_ro (heap s2 id) = false).
    { destruct (K id) as (-> & -> & -> & ->).
      assert (V : r_val (heap s2 id) = Some (c_val e)).
      { unfold s2. apply write_val. unfold s1. cbn. now rewrite !upd_eq. }
      rewrite V. unfold s1. cbn. rewrite !upd_eq. cbn. auto. }
    assert (CE : cfg s2 (c_key e) = Some id).
    { rewrite C2. assert (ckey_eqb (c_key e) (c_key e) = true) as -> by now apply ckey_eqb_eq. auto. }
    assert (CO : forall k, k <> c_key e -> cfg s2 k = cfg s k).
    { intros k Hk. rewrite C2. destruct (ckey_eqb k (c_key e)) eqn:Ek; [|auto].
      apply ckey_eqb_eq in Ek. contradiction. }
    assert (NK : forall x, In x hist -> c_key x <> c_key e).
    { intros x Hx E. apply (SO x Hx). congruence. }
    assert (IDO : forall x, In x hist -> idof s2 x = idof s x).
    { intros x Hx. unfold idof. now rewrite CO by auto. }
    destruct Hid as (HN & Hid). unfold pool_set. rewrite HN.
    constructor; cbn [cfg next heap rtab].
    + intros x Hx. apply in_app_or in Hx as [Hx|[<-|[]]]; [rewrite CO by auto; auto|congruence].
    + intros k Hk. rewrite CO.
      * apply ON. intros x Hx. apply Hk. apply in_or_app. auto.
      * intros ->. apply (Hk e); [apply in_or_app; right; now left|auto].
    + intros k i Hk. rewrite N2. destruct (ckey_eqb k (c_key e)) eqn:Ek.
      * apply ckey_eqb_eq in Ek. subst k. rewrite CE in Hk. injection Hk as <-. lia.
      * rewrite CO in Hk; [|intros ->; rewrite (proj2 (ckey_eqb_eq _ _) eq_refl) in Ek; discriminate].
        apply BO in Hk. unfold id. lia.
    + intros k k' i Hk Hk'.
      assert (D : forall k, cfg s2 k = Some i -> k = c_key e /\ i = id \/ cfg s k = Some i /\ (i < id)%nat).
      { intros k0 H0. destruct (ckey_eqb k0 (c_key e)) eqn:Ek.
        - apply ckey_eqb_eq in Ek. subst k0. left. split; [auto|congruence].
        - right. rewrite CO in H0; [|intros ->; rewrite (proj2 (ckey_eqb_eq _ _) eq_refl) in Ek; discriminate].
          split; [auto|]. apply (BO _ _ H0). }
      destruct (D k Hk) as [[-> ->]|[A1 A2]], (D k' Hk') as [[-> B]|[B1 B2]]; auto; try lia.
      eapply IN; eauto.
    + intros x i Hx Hc. rewrite current_app in Hx. apply in_app_or in Hx as [Hx|[<-|[]]].
      * apply filter_In in Hx as [Hx _]. pose proof (in_current _ _ Hx) as Hx'.
        rewrite CO in Hc by auto. pose proof (BO _ _ Hc). rewrite HO by (unfold id; lia). auto.
      * assert (i = id) by congruence. subst. auto.
    + intros f. rewrite field_order_new by auto. unfold upd. rewrite R2.
      assert (ME : forall f, map (idof s2) (field_order hist f) = map (idof s) (field_order hist f)).
      { intros g. apply map_ext_in. intros x Hx. apply IDO. apply filter_In in Hx as [Hx _].
        now apply in_current, in_order. }
      rewrite Nat.eqb_sym. destruct (Nat.eqb_spec (c_field e) f) as [<-|Hf].
      * cbn [map]. unfold idof at 1. cbn [cfg]. rewrite CE. f_equal.
        rewrite RT. symmetry. apply ME.
      * rewrite RT. symmetry. apply ME.
Qed.

Lemma cfg_run hist : CfgInv (rrun smatch (map cset_rop hist)) hist.
Proof.
  induction hist as [|e h IH] using rev_ind.
  - constructor; cbn; try discriminate; tauto.
  - unfold rrun. rewrite map_app, fold_left_app. cbn [map fold_left]. apply cfg_step, IH.
Qed.

Lemma filter_map' {A B} (f : B -> bool) (g : A -> B) l :
  filter f (map g l) = map g (filter (fun x => f (g x)) l).
Proof. induction l as [|a l IH]; cbn; [auto|]. destruct (f (g a)); cbn; now rewrite IH. Qed.

Lemma config_get_exact hist path f :
  match config_get smatch (rrun smatch (map cset_rop hist)) path f with
  | None => forall e, In e hist -> applies smatch path f e = false
  | Some ov => exists e, ov = Some (c_val e) /\
      winner (filter (applies smatch path f) (order hist)) e
  end.
Proof.
  pose proof (cfg_run hist) as [SO ON BO IN HE RT].
  set (s := rrun smatch (map cset_rop hist)) in *.
  assert (HV : forall e, In e (order hist) -> let i := idof s e in
     r_scope (heap s i) = c_inst e /\ r_prec (heap s i) = c_prec e /\ r_val (heap s i) = Some (c_val e)).
  { intros e He. apply in_order in He. unfold idof. pose proof (SO e (in_current _ _ He)).
    destruct (cfg s (c_key e)) as [i|] eqn:E; [|congruence].
    destruct (HE e i He E) as (_ & A & B & C & _). auto. }
  assert (EL : lookup_name smatch s path f = map (idof s) (filter (applies smatch path f) (order hist))).
  { unfold lookup_name. rewrite RT, filter_map'. f_equal. unfold field_order.
    rewrite filter_filter. apply filter_ext_in. intros x Hx. unfold applies.
    destruct (HV x Hx) as (-> & _). reflexivity. }
  unfold config_get. rewrite EL. pose proof (ghp_spec s (map (idof s) (filter (applies smatch path f) (order hist)))) as G.
  destruct (get_highest_precedence s _) as [id|].
  - destruct G as (q1 & q2 & EQ & G1 & G2).
    apply map_eq_app in EQ as (l1 & l2' & E1 & M1 & M2).
    apply map_eq_cons in M2 as (e & l2 & -> & Mi & M2).
    assert (IO : forall x, In x (l1 ++ e :: l2) -> In x (order hist)).
    { intros x Hx. rewrite <- E1 in Hx. apply filter_In in Hx. tauto. }
    assert (He : In e (order hist)) by (apply IO, in_or_app; right; now left).
    destruct (HV e He) as (_ & P & V). rewrite Mi in P, V.
    exists e. split; [unfold read; exact V|]. exists l1, l2. split; [exact E1|].
    subst q1 q2. rewrite P in G1, G2. split.
    + apply Forall_forall. intros x Hx. rewrite Forall_forall in G1.
      destruct (HV x (IO x (in_or_app _ _ _ (or_introl Hx)))) as (_ & Px & _).
      rewrite <- Px. apply G1. now apply in_map.
    + apply Forall_forall. intros x Hx. rewrite Forall_forall in G2.
      assert (Hx' : In x (order hist)) by (apply IO, in_or_app; right; now right).
      destruct (HV x Hx') as (_ & Px & _).
      rewrite <- Px. apply G2. now apply in_map.
  - apply map_eq_nil in G. intros e He. destruct (applies smatch path f e) eqn:EA; [|auto].
    destruct (current_has hist e He) as (y & Hy & E).
    assert (In y (filter (applies smatch path f) (order hist))).
    { apply filter_In. split; [now apply in_order|]. apply same_eq in E. unfold c_key in E.
      unfold applies in *. injection E as _ E1 E2. now rewrite <- E1, <- E2. }
    rewrite G in H. destruct H.
Qed.

Lemma order_skip hist e path f : applies smatch path f e = false ->
  filter (applies smatch path f) (order (hist ++ [e])) = filter (applies smatch path f) (order hist).
Proof.
  intros H. destruct (existsb (same e) hist) eqn:E.
  - rewrite order_again, filter_app by auto. cbn [filter]. rewrite H, app_nil_r, filter_comm.
    apply filter_all. intros x Hx. apply filter_In in Hx as [_ Hx].
    destruct (same e x) eqn:Ex; [|auto]. apply same_eq in Ex. unfold c_key in Ex.
    unfold applies in *. injection Ex as _ E1 E2. rewrite E1, E2 in H. congruence.
  - rewrite order_new by auto. cbn. now rewrite H.
Qed.
Lemma order_skip_all hist l path f : (forall x, In x l -> applies smatch path f x = false) ->
  filter (applies smatch path f) (order (hist ++ l)) = filter (applies smatch path f) (order hist).
Proof.
  induction l as [|x l IH] using rev_ind; intros H; [now rewrite app_nil_r|].
  rewrite app_assoc, order_skip by (apply H, in_or_app; right; now left).
  apply IH. intros; apply H, in_or_app; auto.
Qed.
Lemma order_once hist : NoDup (map c_key hist) -> order hist = rev hist.
Proof.
  induction hist as [|e h IH] using rev_ind; intros H; [reflexivity|].
  rewrite map_app in H. cbn [map] in H. apply NoDup_remove in H as [H1 H2]. rewrite app_nil_r in H1, H2.
  rewrite order_new.
  - rewrite rev_app_distr. cbn. now rewrite IH.
  - apply not_true_iff_false. intros E. apply existsb_exists in E as (x & Hx & E).
    apply same_eq in E. apply H2. rewrite E. now apply in_map.
Qed.
End CFG.
