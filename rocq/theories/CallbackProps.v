(** C57: callback registration and iteration. *)
From Coq Require Import Arith List Bool Lia.
From Verif Require Import Prelude CallbackModel CallbackSpec CallbackProofs.
Import ListNotations.

Definition after (sh : bool) (h : list cop) : cbs := fst (run_machine cstep (cbs0 sh) h).

(** For every history of registrations and mode changes, an object with at least
    one callback of its own: iterating with a callback class visits exactly its
    enabled callbacks of that class, in registration order, from any previous
    position of the iterator. Missing: type-wide callbacks of such an object. *)
Theorem C57_iterate : forall isa sh h ob k m n,
  adds_to (Some ob) h <> [] ->
  length (registered (Some ob) h) <= n ->
  iterate isa (after sh h) (Some ob) (Some k) m n =
    Some (filter (fun c => isa c k && mode_after h c) (registered (Some ob) h)) /\
  iterate_back isa (after sh h) (Some ob) (Some k) m n =
    Some (rev (filter (fun c => isa c k && mode_after h c) (registered (Some ob) h))).
Proof.
  intros isa sh h ob k m n Ha Hn.
  destruct (reg_inv_run sh h) as (_ & Hp & He & _).
  assert (Eq : get_q (after sh h) (Some ob) = registered (Some ob) h).
  { unfold get_q, after. rewrite Hp. now destruct (adds_to (Some ob) h). }
  assert (Ef : filter (take isa (after sh h) (Some k)) (registered (Some ob) h)
             = filter (fun c => isa c k && mode_after h c) (registered (Some ob) h)).
  { apply filter_ext. intros c. unfold take, after. now rewrite He. }
  rewrite (iterate_spec isa (after sh h) (Some ob) (Some k) m n) by (rewrite Eq; exact Hn).
  rewrite (iterate_back_spec isa (after sh h) (Some ob) (Some k) m n)
    by (rewrite Eq; exact Hn).
  now rewrite Eq, Ef.
Qed.
Print Assumptions C57_iterate.

(** An object without callbacks of its own sees the type-wide ones, whatever type
    they were registered for. *)
Theorem C57_typewide : forall isa sh h ob k m n,
  adds_to (Some ob) h = [] ->
  length (registered None h) <= n ->
  iterate isa (after sh h) (Some ob) (Some k) m n =
    Some (filter (fun c => isa c k && mode_after h c) (registered None h)) /\
  iterate_back isa (after sh h) (Some ob) (Some k) m n =
    Some (rev (filter (fun c => isa c k && mode_after h c) (registered None h))).
Proof.
  intros isa sh h ob k m n Ha Hn.
  destruct (reg_inv_run sh h) as (Ht & Hp & He & _).
  assert (Eq : get_q (after sh h) (Some ob) = registered None h).
  { unfold get_q, after. rewrite Hp, Ha. exact Ht. }
  assert (Ef : filter (take isa (after sh h) (Some k)) (registered None h)
             = filter (fun c => isa c k && mode_after h c) (registered None h)).
  { apply filter_ext. intros c. unfold take, after. now rewrite He. }
  rewrite (iterate_spec isa (after sh h) (Some ob) (Some k) m n) by (rewrite Eq; exact Hn).
  rewrite (iterate_back_spec isa (after sh h) (Some ob) (Some k) m n)
    by (rewrite Eq; exact Hn).
  now rewrite Eq, Ef.
Qed.
Print Assumptions C57_typewide.

(** No callback is registered twice, so none is visited twice; and exactly those
    added are registered. *)
Theorem C57_once : forall isa sh h ob k m n l,
  iterate isa (after sh h) (Some ob) k m n = Some l ->
  length (get_q (after sh h) (Some ob)) <= n ->
  NoDup l.
Proof.
  intros isa sh h ob k m n l H Hn.
  rewrite (iterate_spec isa (after sh h) (Some ob) k m n Hn) in H. injection H as <-.
  apply NoDup_filter. destruct (reg_inv_run sh h) as (Ht & Hp & _).
  unfold get_q, after. rewrite Hp.
  destruct (adds_to (Some ob) h).
  - rewrite Ht. apply fold_enter_nodup. constructor.
  - apply fold_enter_nodup. constructor.
Qed.
Print Assumptions C57_once.

Theorem C57_registered : forall obj h c,
  In c (registered obj h) <-> exists o, In (c, o) (adds_to obj h).
Proof.
  intros obj h c. unfold registered. rewrite fold_enter_in, in_map_iff. cbn. split.
  - intros [[]|([x o] & E & H)]. cbn in E. subst. now exists o.
  - intros (o & H). right. now exists (c, o).
Qed.
Print Assumptions C57_registered.

(** Adding the same callback to the same object again changes nothing that any
    later iteration can see, and warns. *)
Theorem C57_twice : forall sh h ob c o o',
  In (c, o) (adds_to (Some ob) h) ->
  let s := after sh h in
  let r := cstep s (KAdd (Some ob) (Some c) o') in
  snd r = [CWarnReg c] /\ (forall x, get_q (fst r) x = get_q s x) /\
  (forall x, enabled (fst r) x = enabled s x).
Proof.
  intros sh h ob c o o' Hin s r.
  destruct (reg_inv_run sh h) as (Ht & Hp & He & _).
  assert (Hq : pool s ob = Some (registered (Some ob) h)).
  { unfold s, after. rewrite Hp. now destruct (adds_to (Some ob) h). }
  assert (Hf : cb_found (registered (Some ob) h) c = true).
  { apply cb_found_in. apply C57_registered. now exists o. }
  unfold r. cbn [cstep add]. rewrite Hq, Hf. cbn [snd fst enabled].
  split; [reflexivity|]. split; [|reflexivity].
  intros [x|]; [|reflexivity]. unfold get_q; cbn [pool tw].
  unfold upd. destruct (Nat.eqb_spec x ob); [subst; now rewrite Hq|reflexivity].
Qed.
Print Assumptions C57_twice.

(** Adding None, for any object or type-wide, is reported and registers nothing. *)
Theorem C57_none : forall sh h obj o,
  let r := cstep (after sh h) (KAdd obj None o) in
  snd r = [CErrNone] /\ (forall x, get_q (fst r) x = get_q (after sh h) x) /\
  (forall c, enabled (fst r) c = enabled (after sh h) c).
Proof. intros sh h obj o r. repeat split. Qed.
Print Assumptions C57_none.

(** One step of an iteration, from any position and any registry: [next] returns
    the first later entry that qualifies now; when it says [None] none does. *)
Theorem C57_next : forall isa s obj k m,
  match get_next isa s obj k m with
  | (m', Some c) =>
      m < m' /\ nth_error (get_q s obj) m' = Some c /\ take isa s k c = true /\
      forall j d, m < j < m' -> nth_error (get_q s obj) j = Some d ->
                  take isa s k d = false
  | (_, None) =>
      forall j d, m < j -> nth_error (get_q s obj) j = Some d -> take isa s k d = false
  end.
Proof.
  intros isa s obj k m. unfold get_next.
  pose proof (scan_up_spec isa s k (get_q s obj) _ (S m) m eq_refl) as H.
  destruct (scan_up isa s k (get_q s obj) m (S m) _) as [m' [d|]].
  - destruct H as (H1 & H2 & H3 & H4). split; [lia|]. split; [exact H2|].
    split; [exact H3|]. intros j e Hj. apply H4. lia.
  - destruct H as (H1 & _). intros j d Hj. apply H1. lia.
Qed.
Print Assumptions C57_next.

(** Without a callback class the iteration also visits disabled callbacks. *)
Theorem C57_untyped : forall isa sh h obj m n,
  length (get_q (after sh h) obj) <= n ->
  iterate isa (after sh h) obj None m n = Some (get_q (after sh h) obj).
Proof.
  intros isa sh h obj m n Hn.
  rewrite (iterate_spec isa (after sh h) obj None m n Hn). f_equal. clear Hn.
  induction (get_q (after sh h) obj) as [|a l IH]; [reflexivity|]. cbn. f_equal.
  apply IH.
Qed.
Print Assumptions C57_untyped.

Theorem C57_disabled_limit :
  exists h ob, mode_after h 7 = false /\
    iterate (fun _ _ => true) (after false h) (Some ob) None 0 5 = Some [7].
Proof.
  exists [KAdd (Some 1) (Some 7) Append; KMode 7 false], 1. now split.
Qed.
Print Assumptions C57_disabled_limit.

(** A type-wide callback is lost for an object that has one of its own,
    in either order of registration. *)
Theorem C57_typewide_lost : forall sh c d ob, c <> d ->
  iterate (fun _ _ => true)
    (after sh [KAdd None (Some c) Append; KAdd (Some ob) (Some d) Append])
    (Some ob) (Some 0) 0 5 = Some [d] /\
  iterate (fun _ _ => true)
    (after sh [KAdd (Some ob) (Some d) Append; KAdd None (Some c) Append])
    (Some ob) (Some 0) 0 5 = Some [d].
Proof.
  intros sh c d ob _. split.
  - destruct (C57_iterate (fun _ _ => true) sh
      [KAdd None (Some c) Append; KAdd (Some ob) (Some d) Append] ob 0 0 5) as [-> _].
    + cbn. destruct (Nat.eq_dec ob ob); [discriminate|congruence].
    + unfold registered. cbn. destruct (Nat.eq_dec ob ob); cbn; lia.
    + unfold registered. cbn. destruct (Nat.eq_dec ob ob); [reflexivity|congruence].
  - destruct (C57_iterate (fun _ _ => true) sh
      [KAdd (Some ob) (Some d) Append; KAdd None (Some c) Append] ob 0 0 5) as [-> _].
    + cbn. destruct (Nat.eq_dec ob ob); [discriminate|congruence].
    + unfold registered. cbn. destruct (Nat.eq_dec ob ob); cbn; lia.
    + unfold registered. cbn. destruct (Nat.eq_dec ob ob); [reflexivity|congruence].
Qed.
Print Assumptions C57_typewide_lost.

(** Once a message has been reported before any callback was registered (the
    registry is then the shared one), a type-wide registration after an
    object's raises an exception; the callback is registered all the same. *)
Theorem C57_typewide_raises : forall sh h c o,
  snd (cstep (after sh h) (KAdd None (Some c) o)) =
    (if sh && pool_used (after sh h) then [CExn] else []) /\
  In c (tw (fst (cstep (after sh h) (KAdd None (Some c) o)))).
Proof.
  intros sh h c o. destruct (reg_inv_run sh h) as (_ & _ & _ & Hs).
  cbn [cstep add]. unfold add_tw; cbn [snd fst tw].
  split; [now unfold after; rewrite Hs|].
  destruct (cb_found (tw (after sh h)) c) eqn:E.
  - now apply cb_found_in.
  - destruct o; cbn; [rewrite in_app_iff; cbn; auto|auto].
Qed.
Print Assumptions C57_typewide_raises.

(** [pool_used] is: some callback was registered with some object. *)
Theorem C57_pool_used : forall sh h,
  pool_used (after sh h) = true <-> exists ob, adds_to (Some ob) h <> [].
Proof.
  intros sh h. unfold after.
  enough (X : forall h s, pool_used (fst (run_machine cstep s h)) = true <->
     pool_used s = true \/ exists ob, adds_to (Some ob) h <> []).
  { rewrite X. cbn. split; [intros [H|H]; [discriminate|exact H]|auto]. }
  clear. induction h as [|op h IH]; intros s; cbn [run_machine].
  - cbn. split; [auto|]. intros [H|(ob & H)]; [exact H|contradiction].
  - destruct (cstep s op) as [s1 o1] eqn:E. specialize (IH s1).
    destruct (run_machine cstep s1 h) as [s2 o2]. cbn [fst] in *. rewrite IH. clear IH.
    destruct op as [[a|] [c|] o| c on]; cbn [cstep add] in E; cbn [adds_to].
    + assert (pool_used s1 = true) by (destruct (cb_found _ _); injection E as <- <-; reflexivity).
      split; [|auto]. intros _. right. exists a. destruct (Nat.eq_dec a a); congruence.
    + injection E as <- <-. reflexivity.
    + unfold add_tw in E. injection E as <- <-. reflexivity.
    + injection E as <- <-. reflexivity.
    + cbn in E. injection E as <- <-. reflexivity.
Qed.
Print Assumptions C57_pool_used.

(** Iterating the type-wide callbacks themselves (object None) visits nothing. *)
Theorem C57_none_limit :
  exists h c, registered None h = [c] /\ mode_after h c = true /\
    iterate (fun _ _ => true) (after false h) None (Some 0) 0 5 = Some [].
Proof. exists [KAdd None (Some 7) Append], 7. now repeat split. Qed.
Print Assumptions C57_none_limit.

(** Three callbacks of two classes, one prepended, one disabled, one added twice;
    object 1 keeps its own order whatever happens to object 2. *)
Example C57_example :
  let h := [KAdd (Some 1) (Some 10) Append; KAdd (Some 2) (Some 11) Append;
            KAdd (Some 1) (Some 12) Prepend; KAdd (Some 1) (Some 13) Append;
            KMode 13 false; KAdd (Some 1) (Some 14) Append; KMode 10 false;
            KMode 10 true; KAdd (Some 1) (Some 12) Append] in
  let isa c k := Nat.leb k c in
  adds_to (Some 1) h <> [] /\ registered (Some 1) h = [12; 10; 13; 14] /\
  iterate isa (after true h) (Some 1) (Some 11) 3 4 = Some [12; 14] /\
  iterate_back isa (after true h) (Some 1) (Some 10) 3 4 = Some [14; 10; 12] /\
  iterate isa (after true h) (Some 2) (Some 11) 0 4 = Some [11].
Proof. repeat split. discriminate. Qed.
