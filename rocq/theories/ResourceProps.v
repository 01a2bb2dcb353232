(** C37 - C39: resources and the configuration database. *)
From Coq Require Import List Bool Arith ZArith Lia.
From Verif Require Import Prelude ResourceModel ResourceSpec ResourceProofs.
Import ListNotations.
Open Scope Z_scope.

(** ** C37: lookup by name *)

(** For every pool: the resource found is visible, beats every visible one
    searched before it and is not beaten by one searched after it; nothing is
    found only if nothing is visible. *)
Theorem C37_highest_precedence : forall smatch s path name,
  match get_by_name smatch s path name with
  | Some id => exists q1 q2, rtab s name = q1 ++ id :: q2 /\
      smatch (r_scope (heap s id)) path = true /\
      (forall r, In r q1 -> smatch (r_scope (heap s r)) path = true ->
         r_prec (heap s r) < r_prec (heap s id)) /\
      (forall r, In r q2 -> smatch (r_scope (heap s r)) path = true ->
         r_prec (heap s r) <= r_prec (heap s id))
  | None => forall r, In r (rtab s name) -> smatch (r_scope (heap s r)) path = false
  end.
Proof.
  intros smatch s path name. unfold get_by_name.
  pose proof (ghp_spec s (lookup_name smatch s path name)) as G. unfold lookup_name in *.
  destruct (get_highest_precedence s _) as [id|].
  - destruct G as (q1 & q2 & E & G1 & G2). apply filter_split in E as (m1 & m2 & E & F1 & F2 & Fi).
    exists m1, m2. split; [exact E|]. split; [exact Fi|]. subst q1 q2.
    rewrite Forall_forall in G1, G2.
    split; intros r Hr Hm; [apply G1|apply G2]; apply filter_In; auto.
  - intros r Hr. destruct (smatch (r_scope (heap s r)) path) eqn:E; [|auto].
    assert (In r (filter (fun id => smatch (r_scope (heap s id)) path) (rtab s name)))
      by (apply filter_In; auto).
    rewrite G in H. destruct H.
Qed.
Print Assumptions C37_highest_precedence.

(** The resource database, for every history of set and write_by_name: reading
    returns the first value set that is visible, as last written through. *)
Theorem C37_resource_db : forall smatch ops path name,
  read_by_name smatch (rrun smatch (map rdb_rop ops)) path name
  = option_map Some (rdb_read smatch (rdb_spec smatch ops) path name).
Proof.
  intros smatch ops path name. unfold read_by_name, rdb_read.
  pose proof (rdb_run smatch ops) as HI. rewrite (rdb_get smatch _ _ path name HI).
  pose proof (findi_spec (visible smatch path name) (rdb_spec smatch ops) 0) as FS.
  destruct (findi _ 0 _) as [j|].
  - destruct FS as (k & r & -> & Hk & _ & ->). cbn. f_equal. unfold read.
    apply (di_heap _ _ HI k r Hk).
  - rewrite FS. reflexivity.
Qed.
Print Assumptions C37_resource_db.

(** pattern 9 matches every path *)
Definition all9 (p s : nat) : bool := Nat.eqb p 9 || Nat.eqb p s.
Example C37_example :
  let ops := [DSet 1 0 10; DSet 9 0 20; DSet 1 0 30; DWrite 1 0 40; DWrite 2 0 50] in
  rdb_read all9 (rdb_spec all9 ops) 1 0 = Some 40 /\
  rdb_read all9 (rdb_spec all9 ops) 2 0 = Some 50 /\
  rdb_read all9 (rdb_spec all9 ops) 2 1 = None.
Proof. repeat split. Qed.

(** ** C38: configuration database *)

(** What the code does, for every history of sets and every reader: it takes
    the first of highest precedence in [order]. *)
Theorem C38_search_order : forall smatch hist path f,
  match config_get smatch (rrun smatch (map cset_rop hist)) path f with
  | None => forall e, In e hist -> applies smatch path f e = false
  | Some ov => exists e, ov = Some (c_val e) /\
      winner (filter (applies smatch path f) (order hist)) e
  end.
Proof. exact config_get_exact. Qed.
Print Assumptions C38_search_order.

(** A set made earlier can win over the last one. *)
Theorem C38_last_set_limit : exists smatch hist e path f,
  last hist e = e /\ In e hist /\ applies smatch path f e = true /\
  (forall x, In x hist -> c_prec x = c_prec e) /\
  config_get smatch (rrun smatch (map cset_rop hist)) path f <> Some (Some (c_val e)) /\
  config_get smatch (rrun smatch (map cset_rop hist)) path f = Some (Some 2).
Proof.
  exists all9, [CSet 0 0 false 9 0 1; CSet 0 0 false 1 0 2; CSet 0 0 false 9 0 3],
    (CSet 0 0 false 9 0 3), 1%nat, 0%nat.
  split; [reflexivity|]. split; [cbn; auto|]. split; [reflexivity|].
  split; [|split; [discriminate|reflexivity]].
  intros x [<-|[<-|[<-|[]]]]; reflexivity.
Qed.
Print Assumptions C38_last_set_limit.

Lemma winner_in (l : list cset) e : winner l e -> In e l /\ forall x, In x l -> c_prec x <= c_prec e.
Proof.
  intros (l1 & l2 & -> & A & B). rewrite Forall_forall in A, B.
  split; [apply in_or_app; right; now left|]. intros x Hx.
  apply in_app_or in Hx as [Hx|[->|Hx]]; [apply A in Hx; lia|lia|auto].
Qed.

(** In every history the value comes from a set not made again later, which no
    other such set beats: a set from higher up in the hierarchy during build
    wins over lower ones. *)
Theorem C38_highest : forall smatch hist path f ov,
  config_get smatch (rrun smatch (map cset_rop hist)) path f = Some ov ->
  exists h1 e h2, hist = h1 ++ e :: h2 /\ ov = Some (c_val e) /\ applies smatch path f e = true /\
    (forall x, In x h2 -> c_key x <> c_key e) /\
    (forall g1 x g2, hist = g1 ++ x :: g2 -> applies smatch path f x = true ->
       (forall y, In y g2 -> c_key y <> c_key x) -> c_prec x <= c_prec e).
Proof.
  intros smatch hist path f ov H. pose proof (config_get_exact smatch hist path f) as G.
  rewrite H in G. destruct G as (e & -> & W). apply winner_in in W as [W1 W2].
  apply filter_In in W1 as [W1 W3]. apply in_order in W1.
  assert (C1 : forall l e, In e (current l) -> exists h1 h2, l = h1 ++ e :: h2 /\
    forall x, In x h2 -> c_key x <> c_key e).
  { clear. induction l as [|a l IH]; cbn; intros e He; [destruct He|].
    destruct (existsb (same a) l) eqn:E.
    - destruct (IH e He) as (h1 & h2 & -> & X). exists (a :: h1), h2. auto.
    - destruct He as [->|He].
      + exists [], l. split; [auto|]. intros x Hx Ek.
        assert (existsb (same e) l = true); [|congruence].
        apply existsb_exists. exists x. split; [auto|]. now apply same_eq.
      + destruct (IH e He) as (h1 & h2 & -> & X). exists (a :: h1), h2. auto. }
  assert (C2 : forall g1 x g2, (forall y, In y g2 -> c_key y <> c_key x) ->
    In x (current (g1 ++ x :: g2))).
  { clear. induction g1 as [|a g1 IH]; cbn; intros x g2 X.
    - assert (existsb (same x) g2 = false) as ->; [|now left].
      apply not_true_iff_false. intros E. apply existsb_exists in E as (y & Hy & E).
      apply same_eq in E. apply (X y Hy). auto.
    - destruct (existsb (same a) (g1 ++ x :: g2)); [|right]; auto. }
  destruct (C1 hist e W1) as (h1 & h2 & E & X). exists h1, e, h2.
  split; [exact E|]. split; [auto|]. split; [auto|]. split; [auto|].
  intros g1 x g2 E2 A N. apply W2. apply filter_In. split; [|auto]. apply in_order.
  rewrite E2. now apply C2.
Qed.
Print Assumptions C38_highest.

(** If no key is set twice, the last set of highest precedence wins. *)
Theorem C38_last : forall smatch hist path f ov,
  NoDup (map c_key hist) ->
  config_get smatch (rrun smatch (map cset_rop hist)) path f = Some ov ->
  exists h1 e h2, hist = h1 ++ e :: h2 /\ ov = Some (c_val e) /\ applies smatch path f e = true /\
    (forall x, In x h1 -> applies smatch path f x = true -> c_prec x <= c_prec e) /\
    (forall x, In x h2 -> applies smatch path f x = true -> c_prec x < c_prec e).
Proof.
  intros smatch hist path f ov ND H. pose proof (config_get_exact smatch hist path f) as G.
  rewrite H in G. destruct G as (e & -> & (l1 & l2 & E & A & B)).
  rewrite (order_once hist ND) in E. apply filter_split in E as (m1 & m2 & E & F1 & F2 & Fe).
  apply (f_equal (@rev cset)) in E. rewrite rev_involutive, rev_app_distr in E. cbn in E.
  rewrite <- app_assoc in E. cbn in E.
  exists (rev m2), e, (rev m1). split; [exact E|]. split; [auto|]. split; [auto|].
  subst l1 l2. rewrite Forall_forall in A, B.
  split; intros x Hx Ax; rewrite <- in_rev in Hx; [apply B|apply A]; apply filter_In; auto.
Qed.
Print Assumptions C38_last.

(** The last applicable set wins when its key is new and it is not weaker than
    the earlier ones, whatever was repeated before. *)
Theorem C38_new_key : forall smatch h1 e h2 path f,
  applies smatch path f e = true ->
  (forall x, In x h2 -> applies smatch path f x = false) ->
  (forall x, In x h1 -> c_key x <> c_key e) ->
  (forall x, In x h1 -> applies smatch path f x = true -> c_prec x <= c_prec e) ->
  config_get smatch (rrun smatch (map cset_rop (h1 ++ e :: h2))) path f = Some (Some (c_val e)).
Proof.
  intros smatch h1 e h2 path f A N K P.
  pose proof (config_get_exact smatch (h1 ++ e :: h2) path f) as G.
  destruct (config_get smatch _ path f) as [ov|].
  - destruct G as (e' & -> & W). f_equal. f_equal.
    change (h1 ++ e :: h2) with (h1 ++ [e] ++ h2) in W. rewrite app_assoc in W.
    rewrite order_skip_all in W by exact N.
    rewrite order_new in W.
    2:{ apply not_true_iff_false. intros E. apply existsb_exists in E as (x & Hx & E).
        apply same_eq in E. apply (K x Hx). auto. }
    cbn [filter] in W. rewrite A in W. destruct W as (l1 & l2 & E & W1 & W2).
    destruct l1 as [|y l1]; cbn in E; injection E as -> E; [reflexivity|].
    exfalso. inversion W1; subst.
    assert (In e' (filter (applies smatch path f) (order h1))).
    { rewrite E. apply in_or_app. right. now left. }
    apply filter_In in H as [H3 H4]. apply in_order, in_current in H3.
    specialize (P e' H3 H4). lia.
  - specialize (G e). rewrite G in A; [discriminate|]. apply in_or_app. right. now left.
Qed.
Print Assumptions C38_new_key.

(** If only one key is visible to the reader, the last set wins. *)
Theorem C38_single_key : forall smatch h1 e h2 path f,
  applies smatch path f e = true ->
  (forall x, In x h2 -> applies smatch path f x = false) ->
  (forall x, In x h1 -> applies smatch path f x = true -> c_key x = c_key e) ->
  config_get smatch (rrun smatch (map cset_rop (h1 ++ e :: h2))) path f = Some (Some (c_val e)).
Proof.
  intros smatch h1 e h2 path f A N K.
  destruct (config_get smatch (rrun smatch (map cset_rop (h1 ++ e :: h2))) path f) as [ov|] eqn:E.
  - apply C38_highest in E as (g1 & x & g2 & E & -> & Ax & L & _).
    f_equal. f_equal. f_equal.
    (* x is at or after e, and only e applies there *)
    assert (D : In x (h1 ++ e :: h2)) by (rewrite E; apply in_or_app; right; now left).
    destruct (in_dec (fun a b : cset => ltac:(decide equality; (apply Nat.eq_dec || apply Z.eq_dec || apply bool_dec))) x h2) as [H2|H2].
    { rewrite N in Ax by auto. discriminate. }
    revert h1 K E D. induction g1 as [|y g1 IH]; intros h1 K E D.
    + destruct h1 as [|z h1]; cbn in E; injection E as E1 E2; [auto|]. subst z.
      exfalso. assert (Ke : c_key x = c_key e) by (apply K; [now left|auto]).
      apply (L e); [rewrite <- E2; apply in_or_app; right; now left|auto].
    + destruct h1 as [|z h1]; cbn in E; injection E as E1 E2.
      * exfalso. apply H2. rewrite E2. apply in_or_app. right. now left.
      * apply (IH h1); auto.
        -- intros w Hw. apply K. now right.
        -- rewrite E2. apply in_or_app. right. now left.
  - exfalso. pose proof (config_get_exact smatch (h1 ++ e :: h2) path f) as G. rewrite E in G.
    rewrite G in A; [discriminate|]. apply in_or_app. right. now left.
Qed.
Print Assumptions C38_single_key.

(** In build, contexts 1 (depth 2) and 0 (depth 0) set the same field: the
    higher context wins although it came first; then a later set outside build
    under a new pattern wins. *)
Example C38_example :
  let h := [CSet 0 0 true 9 0 1; CSet 1 2 true 1 0 2] in
  config_get all9 (rrun all9 (map cset_rop h)) 1 0 = Some (Some 1) /\
  config_get all9 (rrun all9 (map cset_rop (h ++ [CSet 2 3 false 1 0 7]))) 1 0 = Some (Some 7) /\
  config_get all9 (rrun all9 (map cset_rop h)) 1 5 = None.
Proof. repeat split. Qed.

(** ** C39: read-only *)

(** Whatever else is done through either database or on the objects, a
    read-only resource keeps its value until set_read_write is called. *)
Theorem C39_read_only : forall smatch ops1 ops2 id,
  (id < next (rrun smatch ops1))%nat -> ~ In (SetRW id) ops2 ->
  read (rrun smatch (ops1 ++ SetRO id :: ops2)) id = read (rrun smatch ops1) id.
Proof.
  intros smatch ops1 ops2 id Hid HN. unfold rrun. rewrite fold_left_app. cbn [fold_left].
  fold (rrun smatch ops1). set (s := rrun smatch ops1) in *.
  apply (frozen_run smatch ops2 (rstep smatch s (SetRO id)) id (read s id) HN).
  unfold frozen. cbn. rewrite upd_eq. cbn. auto.
Qed.
Print Assumptions C39_read_only.

(** A writable resource takes the value written, and no other changes. *)
Theorem C39_write : forall s id v,
  r_ro (heap s id) = false ->
  read (write s id v) id = Some v /\ forall j, j <> id -> heap (write s id v) j = heap s j.
Proof.
  intros s id v H. split; [now apply write_val|]. intros. now apply write_heap_other.
Qed.
Print Assumptions C39_write.

(** Making a resource read-only or writable changes nothing else of it, nor what is found. *)
Theorem C39_only_flag : forall smatch s id b,
  let s' := set_ro s id b in
  r_ro (heap s' id) = b /\
  (forall j, r_name (heap s' j) = r_name (heap s j) /\ r_scope (heap s' j) = r_scope (heap s j) /\
    r_prec (heap s' j) = r_prec (heap s j) /\ read s' j = read s j) /\
  (forall j, j <> id -> heap s' j = heap s j) /\
  (forall path name, get_by_name smatch s' path name = get_by_name smatch s path name).
Proof.
  intros smatch s id b s'.
  assert (H : forall j, r_name (heap s' j) = r_name (heap s j) /\ r_scope (heap s' j) = r_scope (heap s j) /\
    r_prec (heap s' j) = r_prec (heap s j) /\ read s' j = read s j).
  { intros j. unfold s', set_ro, set_heap, read. cbn. destruct (Nat.eq_dec j id) as [->|Hn];
      [rewrite upd_eq|rewrite upd_neq by auto]; repeat split. }
  split; [unfold s', set_ro, set_heap; cbn; now rewrite upd_eq|]. split; [exact H|].
  split; [intros j Hn; unfold s', set_ro, set_heap; cbn; now rewrite upd_neq by auto|].
  intros path name. unfold get_by_name.
  assert (L : lookup_name smatch s' path name = lookup_name smatch s path name).
  { unfold lookup_name. change (rtab s' name) with (rtab s name). apply filter_ext. intros i.
    destruct (H i) as (_ & -> & _). reflexivity. }
  rewrite L. clear L. unfold get_highest_precedence. destruct (lookup_name smatch s path name) as [|r q]; [reflexivity|].
  destruct (H r) as (_ & _ & -> & _). f_equal. generalize (r_prec (heap s r)). revert r.
  induction q as [|x q IH]; intros r p; [reflexivity|]. cbn [highest]. destruct (H x) as (_ & _ & -> & _).
  destruct (r_prec (heap s x) >? p); apply IH.
Qed.
Print Assumptions C39_only_flag.

Example C39_example :
  let ops := [RdbSet 1 0 10; SetRO 0; WriteByName 1 0 11; Write 0 12; SetRW 0; Write 0 13] in
  read (rrun all9 (firstn 4 ops)) 0 = Some 10 /\ read (rrun all9 ops) 0 = Some 13.
Proof. split; reflexivity. Qed.
