(** Properties of the display of objections. *)
From Coq Require Import List Bool Arith ZArith String Ascii Lia.
From Verif Require Import DspModel DspSpec.
Import ListNotations.
Local Open Scope string_scope.

Section D.
Context (full : nat -> string).

Lemma look_count o l : match look o l with Some t => t | None => 0%Z end = count_of l o.
Proof.
  unfold count_of. induction l as [|[k v] l IH]; [reflexivity|]. cbn [look find fst]. rewrite (Nat.eqb_sym k o). now destruct (Nat.eqb o k).
Qed.
Lemma padd_new k v l : ~ In k (map fst l) -> padd k v l = (l ++ [(k, v)])%list.
Proof. induction l as [|[a x] l IH]; cbn; intros H; [reflexivity|]. destruct (String.eqb_spec k a); [subst; tauto|]. rewrite IH; tauto. Qed.
Lemma active_app a b : active (a ++ b) = (active a ++ active b)%list.
Proof. unfold active. now rewrite filter_app, map_app. Qed.
Lemma active_one o v : active [(o, v)] = if (0 <? v)%Z then [o] else [].
Proof. unfold active. cbn [filter snd]. now destruct (0 <? v)%Z. Qed.
Lemma pool_is s : proper full (totals s) -> pool_of full s = map (fun o => (full o, o)) (active (totals s)).
Proof.
  intros (ND & INJ). unfold pool_of.
  assert (G : forall l d, (forall a b, In a (active (d ++ l)) -> In b (active (d ++ l)) -> full a = full b -> a = b) -> NoDup (map fst (d ++ l)) ->
    fold_left (fun p e => if (0 <? snd e)%Z then padd (full (fst e)) (fst e) p else p) l (map (fun o => (full o, o)) (active d)) = map (fun o => (full o, o)) (active (d ++ l))).
  { induction l as [|[o v] l IH]; intros d HI HN; [now rewrite app_nil_r|]. cbn [fold_left fst snd].
    replace (d ++ (o, v) :: l)%list with ((d ++ [(o, v)]) ++ l)%list in * by (now rewrite <- app_assoc). rewrite <- IH by auto. f_equal.
    rewrite active_app, active_one. destruct (0 <? v)%Z eqn:E; [|now rewrite app_nil_r]. rewrite map_app. cbn [map]. apply padd_new. rewrite map_map. cbn [fst]. intros X. apply in_map_iff in X as (a & Ea & Ia).
    assert (a = o). { apply HI; auto; rewrite !active_app, active_one, E; apply in_app_iff; left; apply in_app_iff; [left; exact Ia|right; now left]. }
    subst a. rewrite !map_app in HN. apply in_map_iff in Ia as ([a' w] & Ea' & Ia). cbn in Ea'. subst a'. apply filter_In in Ia as (Ia & _). cbn in HN. rewrite <- app_assoc in HN. apply NoDup_remove_2 in HN. apply HN, in_app_iff. left. apply in_map_iff. now exists (o, w). }
  apply (G _ []); auto.
Qed.
Lemma pget_in o l : (forall a b, In a l -> In b l -> full a = full b -> a = b) -> In o l -> pget (full o) (map (fun o => (full o, o)) l) = Some o.
Proof.
  induction l as [|a l IH]; intros INJ I; [easy|]. cbn. destruct (String.eqb_spec (full o) (full a)) as [E|E].
  - f_equal. symmetry. apply INJ; [exact I|now left|exact E].
  - destruct I as [->|I]; [congruence|]. apply IH; auto. intros x y Ix Iy. apply INJ; now right.
Qed.
Lemma sub_prefix a b : String.eqb (substring 0 (length a) b) a = starts a b.
Proof.
  unfold starts. revert b. induction a as [|c a IH]; intros b; [now destruct b|]. destruct b as [|d b]; [reflexivity|]. cbn [length substring prefix String.eqb].
  rewrite <- IH. destruct (ascii_dec c d) as [->|N].
  - now rewrite Ascii.eqb_refl.
  - destruct (Ascii.eqb_spec d c); [congruence|reflexivity].
Qed.
Lemma depth_dots n : name_depth n = dots n.
Proof. reflexivity. Qed.
Lemma dots_app a b : dots (a ++ b) = dots a + dots b.
Proof. induction a as [|c a IH]; cbn; [reflexivity|]. rewrite IH. lia. Qed.
Lemma sub_all n : substring 0 (length n) n = n.
Proof. induction n; cbn; congruence. Qed.
Lemma sub_drop a b : substring (length a) (length (a ++ b) - length a) (a ++ b) = b.
Proof. induction a as [|c a IH]; cbn; [rewrite Nat.sub_0_r; apply sub_all|exact IH]. Qed.
Lemma leaf_ok : forall i n a b, n = a ++ b -> length a = i -> dots b = 0 -> last_part n (leaf_from i n).
Proof.
  induction i as [|i IH]; intros n a b E L D.
  - destruct a; [|discriminate]. cbn in *. subst. split; auto.
  - assert (exists a' c, a = a' ++ String c "" /\ length a' = i) as (a' & c & -> & L').
    { clear - L. revert i L. induction a as [|d a IH]; intros i L; [discriminate|]. destruct a as [|e a].
      - exists "", d. cbn in *. now injection L as <-.
      - destruct i as [|i]; [discriminate|]. destruct (IH i) as (a' & c & E & H); [now injection L as <-|]. exists (String d a'), c. cbn. rewrite <- E. split; auto. }
    cbn [leaf_from]. assert (E' : n = a' ++ String c b). { rewrite E. clear. induction a'; cbn; congruence. }
    assert (G : get i n = Some c). { rewrite E', <- L'. clear. induction a'; cbn; auto. }
    rewrite G. destruct (Ascii.eqb_spec c ".") as [->|N].
    + assert (E2 : n = (a' ++ ".") ++ b). { rewrite E'. clear. induction a'; cbn; congruence. }
      assert (L2 : i + 1 = length (a' ++ ".")). { rewrite <- L'. clear. induction a'; cbn; auto. }
      rewrite L2, E2, sub_drop. split; auto. right. exists a'. rewrite <- E2. exact E'.
    + eapply IH; eauto. cbn. destruct (Ascii.eqb_spec c "."); [contradiction|exact D].
Qed.
Lemma leaf_name_ok n : last_part n (leaf_name n).
Proof. unfold leaf_name. eapply (leaf_ok _ n n ""); auto. now induction n; cbn; congruence. Qed.
Lemma row_ok s o : line_of full (source s) (count_of (totals s)) o (row s o (full o)).
Proof.
  exists (leaf_name (full o)). split; [apply leaf_name_ok|]. unfold row. rewrite look_count, depth_dots. destruct (full o); reflexivity.
Qed.

Lemma nth_map {A B} (f : A -> B) l n : nth_error (map f l) n = match nth_error l n with Some a => Some (f a) | None => None end.
Proof. revert n. induction l as [|a l IH]; intros [|n]; cbn; auto. Qed.
Lemma loop_ok s this L : (forall a b, In a L -> In b L -> full a = full b -> a = b) ->
  forall fuel pos o, In o L -> List.length L - pos < fuel ->
  exists rows, loop fuel s (map (fun o => (full o, o)) L) this pos (full o) = (rows ++ [Foot])%list /\
    Forall2 (line_of full (source s) (count_of (totals s))) (o :: (if starts this (full o) then through (fun x => starts this (full x)) (skipn pos L) else [])) rows.
Proof.
  intros INJ. induction fuel as [|fuel IH]; intros pos o I F; [lia|]. cbn [loop]. rewrite pget_in by auto. rewrite map_length, sub_prefix, nth_map.
  destruct (Nat.ltb_spec pos (List.length L)) as [Hp|Hp].
  - destruct (starts this (full o)) eqn:S'; cbn [andb].
    + destruct (nth_error L pos) as [x|] eqn:E; [|apply nth_error_None in E; lia].
      assert (SK : skipn pos L = x :: skipn (S pos) L). { clear - E. revert L E. induction pos as [|p IH]; intros [|a L] E; try discriminate; cbn in *; [congruence|]. now apply IH. }
      destruct (IH (S pos) x) as (rows & E1 & F1); [eapply nth_error_In; eauto|lia|]. exists (row s o (full o) :: rows). split; [rewrite E1; reflexivity|]. constructor; [apply row_ok|].
      rewrite SK. cbn [through]. destruct (starts this (full x)); exact F1.
    + exists [row s o (full o)]. split; [reflexivity|]. repeat constructor. apply row_ok.
  - cbn [andb]. exists [row s o (full o)]. split; [reflexivity|]. rewrite skipn_all2 by lia. destruct (starts this (full o)); repeat constructor; apply row_ok.
Qed.
Lemma starts_refl a : starts a a = true.
Proof. rewrite <- sub_prefix, sub_all. apply String.eqb_refl. Qed.
Lemma starts_ok a b : starts a b = true <-> exists r, b = a ++ r.
Proof.
  unfold starts. revert b. induction a as [|c a IH]; intros b; [cbn; destruct b; split; eauto|]. destruct b as [|d b]; [split; [discriminate|intros (r & H); discriminate]|]. cbn [prefix].
  destruct (ascii_dec c d) as [->|N]; [rewrite IH; split; intros (r & H); exists r; [now rewrite H|now injection H]|]. split; [discriminate|intros (r & H); injection H; congruence].
Qed.
Lemma active_in l o : NoDup (map fst l) -> (0 < count_of l o)%Z -> In o (active l).
Proof.
  unfold count_of. intros _ H. destruct (find _ l) as [[k v]|] eqn:E; [|lia]. apply find_some in E as (I & K). cbn in *. apply Nat.eqb_eq in K. subst k. unfold active. apply in_map_iff. exists (o, v). split; auto. apply filter_In. split; auto. now apply Z.ltb_lt.
Qed.

(** The display of an object with objections has its total, a head, its own line, and then the lines
    of the objects with objections in the order of the entries, whatever they are, up to and
    including the first whose name does not start with the name of the object. *)
Theorem C221_text : forall s obj, proper full (totals s) ->
  let o := match obj with Some o => o | None => 0 end in
  let n := count_of (totals s) o in
  ((n = 0)%Z -> display full s obj = [Tot 0]) /\
  ((0 < n)%Z -> exists rows, display full s obj = (Tot n :: Head :: rows ++ [Foot])%list /\
     Forall2 (line_of full (source s) (count_of (totals s))) (o :: through (fun x => starts (full o) (full x)) (active (totals s))) rows).
Proof.
  intros s obj P o n. unfold display. fold o. rewrite look_count. fold n. split; intros H.
  - rewrite H. reflexivity.
  - assert ((n =? 0)%Z = false) as -> by (apply Z.eqb_neq; lia). rewrite pool_is by auto. destruct P as (ND & INJ).
    destruct (loop_ok s (full o) (active (totals s)) INJ (S (List.length (active (totals s)))) 0 o) as (rows & E & F); [now apply active_in|lia|].
    rewrite map_length. exists rows. rewrite E. split; [reflexivity|]. rewrite starts_refl in F. exact F.
Qed.

(** Without an object, with the top whose full name is empty: the top, and then all objects with
    objections, the top among them once more. *)
Theorem C221_top : forall s, proper full (totals s) -> full 0 = "" -> (0 < count_of (totals s) 0)%Z ->
  exists rows, display full s None = (Tot (count_of (totals s) 0) :: Head :: rows ++ [Foot])%list /\
    Forall2 (line_of full (source s) (count_of (totals s))) (0 :: active (totals s)) rows /\ In 0 (active (totals s)).
Proof.
  intros s P E H. destruct (C221_text s None P) as (_ & T). destruct (T H) as (rows & D & F). exists rows. split; [exact D|]. split; [|apply active_in; [apply P|exact H]].
  assert (A : forall l, through (fun x => starts (full 0) (full x)) l = l) by (rewrite E; induction l as [|a l IH]; [reflexivity|]; cbn; destruct (full a); now rewrite IH). now rewrite A in F.
Qed.

(** All lines but the first and the last are of objects whose name starts with the name, and
    nothing is left out before the last. *)
Lemma through_parts : forall f l, exists l1 l2 l3, through f l = (l1 ++ l2)%list /\ Forall (fun x => f x = true) l1 /\ List.length l2 <= 1 /\
  l = (l1 ++ l2 ++ l3)%list /\ (l2 = [] -> l3 = []) /\ Forall (fun x => f x = false) l2.
Proof.
  intros f. induction l as [|a l IH]; [exists [], [], []; repeat split; auto|]. cbn. destruct (f a) eqn:E.
  - destruct IH as (l1 & l2 & l3 & E1 & F1 & L & E3 & N & F2). exists (a :: l1), l2, l3. rewrite E1. repeat split; auto. cbn. now rewrite <- E3.
  - exists [], [a], l. repeat split; auto; discriminate.
Qed.
Corollary C221_beneath : forall s o, proper full (totals s) -> (0 < count_of (totals s) o)%Z ->
  exists l1 l2 l3 rows, display full s (Some o) = (Tot (count_of (totals s) o) :: Head :: rows ++ [Foot])%list /\
    Forall2 (line_of full (source s) (count_of (totals s))) (o :: l1 ++ l2) rows /\ active (totals s) = (l1 ++ l2 ++ l3)%list /\
    Forall (fun x => exists r, full x = full o ++ r) l1 /\ Forall (fun x => ~ exists r, full x = full o ++ r) l2 /\ List.length l2 <= 1 /\ (l2 = [] -> l3 = []).
Proof.
  intros s o P H. destruct (C221_text s (Some o) P) as (_ & T). destruct (T H) as (rows & D & F). destruct (through_parts (fun x => starts (full o) (full x)) (active (totals s))) as (l1 & l2 & l3 & E1 & F1 & L & E3 & N & F2).
  rewrite E1 in F. exists l1, l2, l3, rows. repeat split; auto.
  - eapply Forall_impl; [|exact F1]. cbn. intros x X. now apply starts_ok.
  - eapply Forall_impl; [|exact F2]. cbn. intros x X Y. apply starts_ok in Y. congruence.
Qed.
End D.
Print Assumptions C221_text.
Print Assumptions C221_top.
Print Assumptions C221_beneath.

(** Objections of top.a.drv, raised first, and of top.b.drv. The display of top.b has its own line
    and the unrelated one of top.a.drv, and lacks that of top.b.drv. *)
Definition ex_full (o : nat) : string := nth o [""; "top"; "top.a"; "top.a.drv"; "top.b"; "top.b.drv"] "".
Definition ex_s : obn := Obn [(3, 1%Z); (2, 1%Z); (1, 3%Z); (0, 3%Z); (5, 2%Z); (4, 2%Z)] (fun o => nth o [0; 0; 0; 1; 0; 2]%Z 0%Z).
Example C221_example : proper ex_full (totals ex_s) /\ (0 < count_of (totals ex_s) 0)%Z /\
  display ex_full ex_s (Some 4) = [Tot 2; Head; Row 0 2 4 "b"; Row 1 1 6 "drv"; Foot] /\
  display ex_full ex_s None = [Tot 3; Head; Row 0 3 0 "uvm_top"; Row 1 1 6 "drv"; Row 0 1 4 "a"; Row 0 3 2 "top"; Row 0 3 0 "uvm_top"; Row 2 2 6 "drv"; Row 0 2 4 "b"; Foot].
Proof.
  split; [|vm_compute; auto]. split; [repeat constructor; cbn; intuition discriminate|]. cbn. intros a b Ha Hb. intuition (subst; try reflexivity; discriminate).
Qed.
(** An object beneath the one displayed is missing. *)
Theorem C221_missing_limit : exists full s o x, proper full (totals s) /\ (0 < count_of (totals s) o)%Z /\ (0 < count_of (totals s) x)%Z /\
  (exists r, full x = full o ++ "." ++ r) /\ ~ In x (o :: through (fun x => starts (full o) (full x)) (active (totals s))).
Proof.
  exists ex_full, ex_s, 4, 5. split; [apply C221_example|]. split; [reflexivity|]. split; [reflexivity|]. split; [now exists "drv"|]. cbn. intuition discriminate.
Qed.
Print Assumptions C221_missing_limit.
