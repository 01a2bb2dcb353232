(** Properties C10, C11, C70, C71: UVMPool. *)
From Coq Require Import ZArith List Bool Arith Lia Sorted.
From Verif Require Import Prelude PyList PoolModel PoolSpec PoolProofs.
Import ListNotations.
Open Scope Z_scope.

Section Props.
Context (K V : Type) (eq_dec : forall a b : K, {a = b} + {a <> b}).

(** C10. After any history, look-ups give what the abstract map [arun] says ... *)
Theorem C10_pool_lookup : forall (T : option (nat -> V)) (hist : list (pop K V)) (k : K),
  let p := fst (prun eq_dec T hist) in
  let m := arun eq_dec T hist in
  snd (pstep eq_dec T p (PExists k)) = [PBool (match val m k with Some _ => true | None => false end)] /\
  snd (pstep eq_dec T p (PGetItem k)) = [match val m k with Some v => PVal v | None => PRaise end] /\
  snd (pstep eq_dec T p (PGet k)) =
    [match val m k, T with
     | Some v, _ => PVal v | None, Some mk => PVal (mk (built m)) | None, None => PNone end].
Proof. intros T hist k. exact (results_ok eq_dec T _ _ k (rel_run eq_dec T hist)). Qed.

(** ... the keys are exactly those present, num() counts them, and they are in
    order of first insertion since the last deletion. *)
Theorem C10_pool_keys : forall (T : option (nat -> V)) (hist : list (pop K V)),
  let p := fst (prun eq_dec T hist) in
  let m := arun eq_dec T hist in
  NoDup (d_keys (dct p)) /\
  (forall k, In k (d_keys (dct p)) <-> val m k <> None) /\
  snd (pstep eq_dec T p PNumOp) = [PNum (Z.of_nat (length (d_keys (dct p))))] /\
  StronglySorted (fun a b => (birth m a < birth m b)%nat) (d_keys (dct p)).
Proof.
  intros T hist. destruct (keys_ok eq_dec _ _ (rel_run eq_dec T hist)) as (H1 & H2 & H3).
  split; [exact H1|]. split; [exact H2|]. split; [cbn; now rewrite H3|].
  exact (proj1 (proj2 (rel_run eq_dec T hist))).
Qed.

(** C11. *)
Theorem C11_pool_iteration : forall p : pool K V,
  iterate (S (length (dct p))) p = Some (map PKey (d_keys (dct p))) /\
  iterate_back (S (length (dct p))) p = Some (map PKey (rev (d_keys (dct p)))).
Proof. intros p. split; [exact (iterate_ok eq_dec p)|exact (iterate_back_ok eq_dec p)]. Qed.

(** next() never raises in a reachable state. *)
Theorem C11_next_never_raises : forall (T : option (nat -> V)) (hist : list (pop K V)),
  ~ In PRaise (snd (pstep eq_dec T (fst (prun eq_dec T hist)) PNext)).
Proof.
  intros T hist. pose proof (next_no_raise _ (ptr_run eq_dec T hist)) as H. cbn.
  destruct (p_next _) as [p' r]. cbn in *. now intros [->|[]].
Qed.

(** prev() never raises in a history without deletions. *)
Definition no_delete (o : pop K V) : Prop := match o with PDelete _ => False | _ => True end.
Theorem C11_prev_never_raises : forall (T : option (nat -> V)) (hist : list (pop K V)), Forall no_delete hist ->
  ~ In PRaise (snd (pstep eq_dec T (fst (prun eq_dec T hist)) PPrev)).
Proof.
  intros T hist HF.
  assert (HI : -1 <= ptr (fst (prun eq_dec T hist)) <= zlen (dct (fst (prun eq_dec T hist))) - 1).
  { unfold prun. assert (Hset : forall (d : dict K V) k v, zlen d <= zlen (d_set eq_dec d k v)).
    { unfold zlen. induction d as [|[k' v'] d IH]; intros k v; cbn [d_set length]; [lia|]. destruct (eq_dec k k'); cbn [length]; [lia|]. specialize (IH k v). lia. }
    assert (H0 : -1 <= ptr (@pool0 K V) <= zlen (dct (@pool0 K V)) - 1) by (cbn; lia). revert HF H0. generalize (@pool0 K V) as p.
    induction hist as [|o hist IH]; intros p HF H0; [exact H0|]. inversion HF as [|? ? Ho HF']; subst.
    cbn [run_machine]. destruct (pstep eq_dec T p o) as [p1 r] eqn:E. specialize (IH p1 HF').
    assert (H1 : -1 <= ptr p1 <= zlen (dct p1) - 1).
    { destruct o; cbn [pstep] in E; try (injection E as <- <-; exact H0).
      - unfold p_get in E. destruct (d_in eq_dec (dct p) k); [now injection E as <- <-|]. destruct T as [f|]; injection E as <- <-; cbn [ptr dct]; [|lia]. specialize (Hset (dct p) k (f (made p))). lia.
      - injection E as <- <-. cbn [ptr dct p_add]. specialize (Hset (dct p) k v). lia.
      - destruct Ho.
      - unfold p_last in E. pose proof (zlen_keys (dct p)) as Hz. unfold p_num in E. rewrite Hz in E. destruct (0 <? zlen (dct p)) eqn:E0; injection E as <- <-; cbn [ptr dct]; [apply Z.ltb_lt in E0; lia|exact H0].
      - unfold p_first in E. pose proof (zlen_keys (dct p)) as Hz. destruct (d_keys (dct p)) as [|k ks] eqn:Ek; injection E as <- <-; cbn [ptr dct]; [exact H0|]. unfold zlen in Hz at 1. cbn [length] in Hz. lia.
      - unfold p_next in E. destruct (p_has_next p) eqn:En; injection E as <- <-; cbn [ptr dct]; [|exact H0]. unfold p_has_next, p_num in En. rewrite zlen_keys in En. lia.
      - unfold p_prev in E. destruct (p_has_prev p) eqn:En; injection E as <- <-; cbn [ptr dct]; [|exact H0]. unfold p_has_prev in En. lia. }
    specialize (IH H1). destruct (run_machine (pstep eq_dec T) p1 hist). exact IH. }
  set (p := fst (prun eq_dec T hist)) in *. cbn [pstep]. unfold p_prev. destruct (p_has_prev p) eqn:En; [|cbn; intros [H|[]]; discriminate]. cbn [snd ptr].
  unfold p_has_prev in En. apply Z.ltb_lt in En. unfold py_get. rewrite py_pos_nonneg by lia. rewrite zlen_keys. replace (_ <? _) with true by lia.
  destruct (nth_error (d_keys (dct p)) (Z.to_nat (ptr p - 1))) eqn:Ee; [intros [H|[]]; discriminate|].
  apply nth_error_None in Ee. unfold d_keys in Ee. rewrite map_length in Ee. unfold zlen in HI. lia.
Qed.

(** has_next() and has_prev() say during these iterations whether a key follows or precedes;
    beyond the ends next() and prev() give None. *)
Theorem C11_has : forall (T : option (nat -> V)) (p : pool K V) (n : nat), (n < length (dct p))%nat ->
  let f := fst (run_machine (pstep eq_dec T) p (PFirst :: repeat PNext n)) in
  let l := fst (run_machine (pstep eq_dec T) p (PLast :: repeat PPrev n)) in
  snd (pstep eq_dec T f PHasNext) = [PBool (S n <? length (dct p))%nat] /\
  snd (pstep eq_dec T f PHasPrev) = [PBool (0 <? n)%nat] /\
  snd (pstep eq_dec T l PHasPrev) = [PBool (S n <? length (dct p))%nat] /\
  snd (pstep eq_dec T l PHasNext) = [PBool (0 <? n)%nat] /\
  (S n = length (dct p) -> snd (pstep eq_dec T f PNext) = [PNone] /\ snd (pstep eq_dec T l PPrev) = [PNone]).
Proof.
  intros T p n L. cbn zeta. destruct p as [d pos b]. cbn [dct] in L.
  assert (Z : p_num (Pool d pos b) = Z.of_nat (length d)) by (unfold p_num; rewrite zlen_keys; reflexivity).
  assert (F : forall k q, (q + k < length d)%nat -> fst (run_machine (pstep eq_dec T) (Pool d (Z.of_nat q) b) (repeat PNext k)) = Pool d (Z.of_nat (q + k)) b).
  { induction k as [|k IH]; intros q H; [cbn; now rewrite Nat.add_0_r|]. cbn [repeat run_machine pstep]. unfold p_next, p_has_next, p_num. cbn [dct ptr made]. rewrite zlen_keys.
    replace (Z.of_nat q <? zlen d - 1) with true by (unfold zlen; lia). replace (Z.of_nat q + 1) with (Z.of_nat (S q)) by lia.
    specialize (IH (S q)). replace (q + S k)%nat with (S q + k)%nat by lia. rewrite <- IH by lia. now destruct (run_machine _ _ (repeat PNext k)). }
  assert (B : forall k q, (k <= q)%nat -> fst (run_machine (pstep eq_dec T) (Pool d (Z.of_nat q) b) (repeat PPrev k)) = Pool d (Z.of_nat (q - k)) b).
  { induction k as [|k IH]; intros q H; [cbn; now rewrite Nat.sub_0_r|]. cbn [repeat run_machine pstep]. unfold p_prev, p_has_prev. cbn [dct ptr made].
    replace (0 <? Z.of_nat q) with true by lia. replace (Z.of_nat q - 1) with (Z.of_nat (q - 1)) by lia.
    specialize (IH (q - 1)%nat). replace (q - S k)%nat with (q - 1 - k)%nat by lia. rewrite <- IH by lia. now destruct (run_machine _ _ (repeat PPrev k)). }
  assert (Ef : fst (run_machine (pstep eq_dec T) (Pool d pos b) (PFirst :: repeat PNext n)) = Pool d (Z.of_nat n) b).
  { cbn [run_machine pstep]. unfold p_first. cbn [dct made]. destruct d as [|[k v] d]; [cbn in L; lia|]. cbn [d_keys map fst].
    specialize (F n 0%nat). cbn [Nat.add Z.of_nat] in F. destruct (run_machine _ _ (repeat PNext n)). cbn [fst] in *. now apply F. }
  assert (El : fst (run_machine (pstep eq_dec T) (Pool d pos b) (PLast :: repeat PPrev n)) = Pool d (Z.of_nat (length d - 1 - n)) b).
  { cbn [run_machine pstep]. unfold p_last. rewrite Z. cbn [dct made]. replace (0 <? Z.of_nat (length d)) with true by lia.
    specialize (B n (length d - 1)%nat). replace (Z.of_nat (length d) - 1) with (Z.of_nat (length d - 1)) by lia. destruct (run_machine _ _ (repeat PPrev n)). cbn [fst] in *. apply B. lia. }
  rewrite Ef, El. cbn [pstep snd dct]. unfold p_has_next, p_has_prev, p_next, p_prev, p_has_next, p_has_prev, p_num. cbn [ptr dct]. rewrite zlen_keys. unfold zlen.
  assert (X : forall x y : bool, (x = true <-> y = true) -> [PBool x] = [@PBool K V y]) by (intros x y H; do 2 f_equal; now apply Bool.eq_iff_eq_true).
  repeat split; try (apply X; rewrite Z.ltb_lt, Nat.ltb_lt; lia).
  - replace (Z.of_nat n <? Z.of_nat (length d) - 1) with false by lia. reflexivity.
  - replace (0 <? Z.of_nat (length d - 1 - n)) with false by lia. reflexivity.
Qed.

(** In an empty pool first() and last() answer False and next() None, and the pool is as before. *)
Theorem C11_empty : forall (T : option (nat -> V)) (hist : list (pop K V)), let p := fst (prun eq_dec T hist) in snd (pstep eq_dec T p PNumOp) = [PNum 0] ->
  pstep eq_dec T p PFirst = (p, [PFalse]) /\ pstep eq_dec T p PLast = (p, [PFalse]) /\ pstep eq_dec T p PNext = (p, [PNone]) /\ pstep eq_dec T p PHasNext = (p, [PBool false]).
Proof.
  intros T hist p H. pose proof (ptr_run eq_dec T hist) as HP. fold p in HP. destruct p as [d q b]. cbn in H, HP. injection H as H. unfold p_num in H. rewrite zlen_keys in H. cbn [dct] in H.
  destruct d; [|unfold zlen in H; cbn in H; lia]. cbn [pstep]. unfold p_first, p_last, p_next, p_has_next, p_num. cbn. replace (q <? -1) with false by lia. auto.
Qed.

(** C70. do_print lists the whole pool when the pointer was never moved. *)
Theorem C70_print : forall (d : dict K V) (b : nat),
  do_print (S (length d)) (Pool d (-1) b) = Some (Pool d (zlen d - 1) b, map PKey (d_keys d)).
Proof.
  intros d b. unfold do_print. rewrite next_loop_ok with (n := length d); auto; try lia.
  - now rewrite Nat.sub_diag.
  - unfold zlen. lia.
Qed.

(** In any state it lists the entries after the position and leaves it at the end. *)
Theorem C70_print_rest : forall (d : dict K V) (pos : Z) (b : nat), -1 <= pos <= zlen d - 1 ->
  do_print (S (length d)) (Pool d pos b) = Some (Pool d (zlen d - 1) b, map PKey (skipn (Z.to_nat (pos + 1)) (d_keys d))).
Proof.
  intros d pos b Hp. unfold do_print. assert (Hq : pos = zlen d - 1 - Z.of_nat (length d - Z.to_nat (pos + 1))) by (unfold zlen in *; lia).
  rewrite (next_loop_ok eq_dec d pos b (length d) (length d - Z.to_nat (pos + 1))); unfold zlen in *; try lia.
  repeat f_equal. lia.
Qed.

(** C71. get() of a string pool creates at most once per key: after a get of
    [k], every key other than [k] is as before, and [k] maps to what was
    returned. *)
Theorem C71_string_pool_get : forall (mk : nat -> K -> V) (p : pool K V) (k : K),
  let r := s_get eq_dec mk p k in
  snd r = PVal (match d_get eq_dec (dct p) k with Some v => v | None => mk (made p) k end) /\
  forall k', d_get eq_dec (dct (fst r)) k' =
    if eq_dec k' k then Some (match d_get eq_dec (dct p) k with Some v => v | None => mk (made p) k end)
    else d_get eq_dec (dct p) k'.
Proof. exact (s_get_ok eq_dec). Qed.

(** Deleting an existing key never returns, whatever the recursion limit. *)
Theorem C71_string_pool_delete : forall (p : pool K V) (k : K),
  d_get eq_dec (dct p) k <> None -> forall fuel, s_delete eq_dec fuel p k = None.
Proof. exact (s_delete_diverges eq_dec). Qed.

(** Deleting an absent key returns at once and changes nothing. *)
Theorem C71_string_pool_delete_absent : forall (p : pool K V) (k : K),
  d_get eq_dec (dct p) k = None -> s_delete eq_dec 1 p k = Some p.
Proof. intros p k H. cbn. unfold p_exists, d_in. now rewrite H. Qed.

End Props.
Print Assumptions C10_pool_lookup.
Print Assumptions C10_pool_keys.
Print Assumptions C11_pool_iteration.
Print Assumptions C11_has.
Print Assumptions C11_empty.
Print Assumptions C11_next_never_raises.
Print Assumptions C11_prev_never_raises.
Print Assumptions C70_print_rest.
Print Assumptions C70_print.
Print Assumptions C71_string_pool_get.
Print Assumptions C71_string_pool_delete.
Print Assumptions C71_string_pool_delete_absent.

(** C11: after deletions, prev() can raise IndexError instead of returning a
    key or None. *)
Theorem C11_prev_raises_limit : exists hist : list (pop nat nat),
  snd (pstep Nat.eq_dec None (fst (prun Nat.eq_dec None hist)) PPrev) = [PRaise].
Proof.
  exists [PAdd 1 1; PAdd 2 2; PAdd 3 3; PLast; PDelete (Some 3); PDelete (Some 2)]%nat.
  vm_compute. reflexivity.
Qed.
Print Assumptions C11_prev_raises_limit.

(** C70: printing twice prints nothing the second time. *)
Theorem C70_print_limit : exists p p1 : pool nat nat,
  do_print 4 p = Some (p1, [PKey 1; PKey 2]%nat) /\ do_print 4 p1 = Some (p1, []).
Proof.
  exists (Pool [(1, 10); (2, 20)]%nat (-1) 0), (Pool [(1, 10); (2, 20)]%nat 1 0).
  split; reflexivity.
Qed.
Print Assumptions C70_print_limit.

Example C10_example :
  let h := [PAdd 3 30; PAdd 1 10; PGet 2; PDelete (Some 3); PAdd 1 11; PAdd 3 31]%nat in
  d_keys (dct (fst (prun Nat.eq_dec (Some (fun n => 100 + n)%nat) h))) = [1; 2; 3]%nat /\
  snd (prun Nat.eq_dec (Some (fun n => 100 + n)%nat) h) = [PVal 100%nat].
Proof. vm_compute. split; reflexivity. Qed.
