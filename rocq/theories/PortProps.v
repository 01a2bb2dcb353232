(** C63, C104: ports. *)
From Coq Require Import ZArith List Bool Arith Lia.
From Verif Require Import Prelude PortModel.
Import ListNotations.
Local Open Scope nat_scope.

(** ** Specification *)
Section Spec.
Context (kd : nat -> kind) (mask : nat -> Z).
(** What connect documents as legal. *)
Definition legal (p q : nat) : Prop :=
  p <> q /\ Z.land (mask q) (mask p) = mask p /\ kd p <> KImp /\ ~ (kd p = KExport /\ kd q = KPort).
(** A legal call p.connect(q) was made. *)
Definition linked (log : list (nat * nat)) (p q : nat) : Prop := In (p, q) log /\ legal p q.
(** q can be reached from p through connections. *)
Inductive reach (log : list (nat * nat)) : nat -> nat -> Prop :=
| reach_refl p : reach log p p
| reach_step p q r : linked log p q -> reach log q r -> reach log p r.
(** No port is connected, through others, to itself. *)
Definition acyclic (log : list (nat * nat)) : Prop := exists rank : nat -> nat, forall p q, linked log p q -> rank q < rank p.
End Spec.

(** ** Proofs *)
Definition addnew (l : list nat) (x : nat) : list nat := if existsb (Nat.eqb x) l then l else l ++ [x].
Definition merge (l m : list nat) : list nat := fold_left addnew m l.
Lemma mem_iff x l : existsb (Nat.eqb x) l = true <-> In x l.
Proof.
  rewrite existsb_exists. split.
  - intros (y & Hy & E). apply Nat.eqb_eq in E. now subst.
  - intros H. exists x. split; [exact H|apply Nat.eqb_refl].
Qed.
Lemma addnew_in l x y : In y (addnew l x) <-> In y l \/ y = x.
Proof.
  unfold addnew. destruct (existsb (Nat.eqb x) l) eqn:E.
  - apply mem_iff in E. split; [auto|]. intros [H| ->]; auto.
  - rewrite in_app_iff. cbn. intuition.
Qed.
Lemma addnew_nodup l x : NoDup l -> NoDup (addnew l x).
Proof.
  intros H. unfold addnew. destruct (existsb (Nat.eqb x) l) eqn:E; [exact H|].
  assert (~ In x l) as Hx by (rewrite <- mem_iff; congruence).
  apply NoDup_rev in H. rewrite <- (rev_involutive (l ++ [x])). apply NoDup_rev. rewrite rev_app_distr. cbn.
  constructor; [|exact H]. now rewrite <- in_rev.
Qed.
Lemma merge_in m : forall l y, In y (merge l m) <-> In y l \/ In y m.
Proof.
  unfold merge. induction m as [|x m IH]; intros l y; cbn; [tauto|]. rewrite IH, addnew_in. intuition.
Qed.
Lemma merge_nodup m : forall l, NoDup l -> NoDup (merge l m).
Proof. unfold merge. induction m as [|x m IH]; intros l H; cbn; auto using addnew_nodup. Qed.

Section P.
Context (kd : nat -> kind) (nm : nat -> nat) (mask : nat -> Z) (mn mx : nat -> Z).
Context (nm_inj : forall p q, nm p = nm q -> p = q).
Notation connect_all := (connect_all kd nm mask).
Notation linked := (linked kd mask).
Notation reach := (reach kd mask).
Notation resolve := (resolve kd nm mn mx).

Definition entry (q : nat) : nat * nat := (nm q, q).
Lemma dset_new l q : dset (map entry l) (nm q) q = map entry (addnew l q).
Proof.
  unfold addnew. induction l as [|x l IH]; [reflexivity|]. cbn [map dset entry existsb].
  destruct (Nat.eqb_spec (nm q) (nm x)) as [E|E].
  - apply nm_inj in E. subst x. rewrite Nat.eqb_refl. reflexivity.
  - destruct (Nat.eqb_spec q x) as [->|E']; [congruence|]. cbn [orb]. unfold entry in *. rewrite IH. now destruct (existsb (Nat.eqb q) l).
Qed.
Lemma dhas_mem l q : dhas (map entry l) (nm q) = existsb (Nat.eqb q) l.
Proof.
  unfold dhas. induction l as [|x l IH]; [reflexivity|]. cbn [map existsb fst entry]. unfold entry in *. rewrite IH. f_equal.
  destruct (Nat.eqb_spec (nm q) (nm x)) as [E|E], (Nat.eqb_spec q x) as [E'|E']; auto; try (apply nm_inj in E; contradiction); try congruence.
Qed.
Lemma dict_add l q : (if dhas (map entry l) (nm q) then map entry l else dset (map entry l) (nm q) q) = map entry (addnew l q).
Proof.
  rewrite dhas_mem, dset_new. unfold addnew. now destruct (existsb (Nat.eqb q) l).
Qed.

(** *** Connections *)
Lemma connect_error_legal p q : connect_error kd mask p q = None <-> legal kd mask p q.
Proof.
  unfold connect_error, legal. destruct (Nat.eqb_spec q p) as [->|E]; [intuition congruence|].
  destruct (Z.eqb_spec (Z.land (mask q) (mask p)) (mask p)) as [Em|Em]; cbn [negb]; [|intuition congruence].
  destruct (kd p), (kd q); intuition congruence.
Qed.
Definition edges (log : list (nat * nat)) (p : nat) : list nat :=
  fold_left (fun l c => if Nat.eqb (fst c) p then match connect_error kd mask p (snd c) with None => addnew l (snd c) | Some _ => l end else l) log [].
Lemma edges_in log p q : In q (edges log p) <-> linked log p q.
Proof.
  unfold edges, PortProps.linked.
  assert (G : forall l, In q (fold_left (fun l c => if Nat.eqb (fst c) p then match connect_error kd mask p (snd c) with None => addnew l (snd c) | Some _ => l end else l) log l)
    <-> In q l \/ (In (p, q) log /\ legal kd mask p q)).
  { induction log as [|[a b] log IH]; intros l; cbn [fold_left fst snd In]; [tauto|]. rewrite IH.
    destruct (Nat.eqb_spec a p) as [->|E].
    - destruct (connect_error kd mask p b) eqn:Ec.
      + split; [intuition|]. intros [H|[[H|H] L]]; auto. injection H as ->. apply connect_error_legal in L. congruence.
      + rewrite addnew_in. apply connect_error_legal in Ec. split.
        * intros [[H| ->]|H]; intuition.
        * intros [H|[[H|H] L]]; auto. injection H as ->. auto.
    - split; [intuition|]. intros [H|[[H|H] L]]; auto. congruence. }
  rewrite G. cbn. tauto.
Qed.
Lemma connect_all_prov log p : provided_by (connect_all ports0 log) p = map entry (edges log p).
Proof.
  unfold PortModel.connect_all, edges. change (provided_by _ p) with (provided_by (fold_left (fun s c => connect kd nm mask s (fst c) (snd c)) log ports0) p).
  assert (G : forall s l, provided_by s p = map entry l -> provided_by (fold_left (fun s c => connect kd nm mask s (fst c) (snd c)) log s) p =
    map entry (fold_left (fun l c => if Nat.eqb (fst c) p then match connect_error kd mask p (snd c) with None => addnew l (snd c) | Some _ => l end else l) log l)).
  { induction log as [|[a b] log IH]; intros s l H; cbn [fold_left fst snd]; [exact H|]. apply IH. unfold connect.
    destruct (Nat.eqb_spec a p) as [->|E].
    - destruct (connect_error kd mask p b); [exact H|]. cbn. unfold updf. rewrite Nat.eqb_refl, H. apply dset_new.
    - destruct (connect_error kd mask a b); [exact H|]. cbn. unfold updf. destruct (Nat.eqb_spec a p); [congruence|]. exact H. }
  now apply (G ports0 []).
Qed.
Lemma connect_all_rest log : imp_list (connect_all ports0 log) = (fun _ => []) /\ resolved (connect_all ports0 log) = (fun _ => false) /\
  m_if (connect_all ports0 log) = (fun _ => None) /\ reported (connect_all ports0 log) = [].
Proof.
  unfold PortModel.connect_all. 
  assert (G : forall s, let s' := fold_left (fun s c => connect kd nm mask s (fst c) (snd c)) log s in
    imp_list s' = imp_list s /\ resolved s' = resolved s /\ m_if s' = m_if s /\ reported s' = reported s).
  { induction log as [|[a b] log IH]; intros s; cbn [fold_left fst snd]; [auto|]. cbn zeta.
    destruct (IH (connect kd nm mask s a b)) as (-> & -> & -> & ->). unfold connect. destruct (connect_error kd mask a b); auto. }
  apply (G ports0).
Qed.

(** *** Resolution *)
Section R.
Context (log : list (nat * nat)) (rank : nat -> nat) (Hrank : forall p q, linked log p q -> rank q < rank p).
(** The imps of a port, in the order of the code. *)
Fixpoint order_f (fuel : nat) (p : nat) : list nat :=
  match fuel with
  | O => []
  | S k => if is_imp kd p then [p] else merge [] (flat_map (order_f k) (edges log p))
  end.
Definition order (p : nat) : list nat := order_f (S (rank p)) p.
Lemma order_f_enough f : forall g p, rank p < f -> rank p < g -> order_f f p = order_f g p.
Proof.
  induction f as [|f IH]; intros [|g] p H1 H2; try lia. cbn. destruct (is_imp kd p); [reflexivity|]. f_equal.
  assert (forall l, (forall q, In q l -> rank q < rank p) -> flat_map (order_f f) l = flat_map (order_f g) l) as G.
  { induction l as [|q l IHl]; intros Hl; [reflexivity|]. cbn. rewrite IHl by (intros; apply Hl; now right). f_equal.
    specialize (Hl q (or_introl eq_refl)). apply IH; lia. }
  apply G. intros q Hq. apply edges_in in Hq. now apply Hrank.
Qed.
Lemma order_eq p : order p = if is_imp kd p then [p] else merge [] (flat_map order (edges log p)).
Proof.
  unfold order at 1. cbn [order_f]. destruct (is_imp kd p); [reflexivity|]. f_equal.
  assert (forall l, (forall q, In q l -> rank q < rank p) -> flat_map (order_f (rank p)) l = flat_map order l) as G.
  { induction l as [|q l IHl]; intros Hl; [reflexivity|]. cbn [flat_map]. rewrite IHl by (intros; apply Hl; now right). f_equal.
    specialize (Hl q (or_introl eq_refl)). apply order_f_enough; lia. }
  apply G. intros q Hq. apply edges_in in Hq. now apply Hrank.
Qed.
Lemma order_nodup p : NoDup (order p).
Proof. rewrite order_eq. destruct (is_imp kd p); [repeat constructor; intros []|]. apply merge_nodup. constructor. Qed.
Lemma is_imp_iff p : is_imp kd p = true <-> kd p = KImp.
Proof. unfold is_imp. destruct (kd p); intuition discriminate. Qed.
Lemma order_reach p : forall i, In i (order p) <-> reach log p i /\ kd i = KImp.
Proof.
  induction p as [p IH] using (well_founded_induction (Wf_nat.well_founded_ltof _ rank)). intros i. unfold ltof in IH.
  rewrite order_eq. destruct (is_imp kd p) eqn:Ei.
  - apply is_imp_iff in Ei. cbn. split.
    + intros [<-|[]]. split; [constructor|exact Ei].
    + intros [Hr Hk]. inversion Hr as [|? q ? [_ (_ & _ & L & _)] _]; subst; [now left|]. contradiction.
  - rewrite merge_in, in_flat_map. cbn. split.
    + intros [[]|(q & Hq & Hi)]. apply edges_in in Hq. apply IH in Hi; [|now apply Hrank]. split; [|tauto]. econstructor; [exact Hq|tauto].
    + intros [Hr Hk]. right. inversion Hr as [x|x q y Hq Hr']; subst.
      * apply is_imp_iff in Hk. congruence.
      * exists q. split; [now apply edges_in|]. apply IH; [now apply Hrank|auto].
Qed.

Definition errs_of (p : nat) : list (nat * cerr) :=
  (if (Z.of_nat (length (order p)) <? mn p)%Z then [(p, TooFew)] else []) ++
  (if negb (mx p =? -1)%Z && (mx p <? Z.of_nat (length (order p)))%Z then [(p, TooMany)] else []).
Definition about (p : nat) (l : list (nat * cerr)) : list (nat * cerr) := filter (fun e => Nat.eqb p (fst e)) l.
Definition ok_at (s : ports) (x : nat) : Prop :=
  if resolved s x then imp_list s x = map entry (order x) /\ m_if s x = hd_error (order x) /\ about x (reported s) = errs_of x
  else imp_list s x = [] /\ m_if s x = None /\ about x (reported s) = [].
(** What another port's resolution leaves alone. *)
Definition same_at (s s' : ports) (x : nat) : Prop :=
  imp_list s' x = imp_list s x /\ resolved s' x = resolved s x /\ m_if s' x = m_if s x /\ about x (reported s') = about x (reported s).
Lemma same_refl s x : same_at s s x.
Proof. unfold same_at. auto. Qed.
Lemma same_trans s s' s'' x : same_at s s' x -> same_at s' s'' x -> same_at s s'' x.
Proof. intros (A1 & A2 & A3 & A4) (B1 & B2 & B3 & B4). unfold same_at. repeat split; congruence. Qed.
Lemma same_ok s s' x : same_at s s' x -> ok_at s x -> ok_at s' x.
Proof. intros (A1 & A2 & A3 & A4). unfold ok_at. now rewrite A1, A2, A3, A4. Qed.

Lemma updf_eq {B} (f : nat -> B) i v : updf f i v i = v.
Proof. unfold updf. now rewrite Nat.eqb_refl. Qed.
Lemma updf_neq {B} (f : nat -> B) i v j : i <> j -> updf f i v j = f j.
Proof. intros H. unfold updf. now destruct (Nat.eqb_spec i j). Qed.

Lemma get_if_entry s p l i : imp_list s p = map entry l -> i < length l -> get_if s p (Z.of_nat i) = nth_error l i.
Proof.
  intros H Hi. unfold get_if, psize. rewrite H, map_length.
  destruct (Z.eqb_spec (Z.of_nat (length l)) 0); [lia|]. destruct (Z.ltb_spec (Z.of_nat i) 0); [lia|].
  destruct (Z.leb_spec (Z.of_nat (length l)) (Z.of_nat i)); [lia|]. cbn [orb]. rewrite Nat2Z.id, nth_error_map.
  now destruct (nth_error l i).
Qed.
Lemma add_list_ok p q l : p <> q -> forall n k s acc, imp_list s q = map entry l -> imp_list s p = map entry acc -> k + n <= length l ->
  exists s', add_list nm s p q (seq k n) = Some s' /\ imp_list s' p = map entry (merge acc (firstn n (skipn k l))) /\
    provided_by s' = provided_by s /\ resolved s' = resolved s /\ m_if s' = m_if s /\ reported s' = reported s /\
    (forall x, x <> p -> imp_list s' x = imp_list s x).
Proof.
  intros Hpq. induction n as [|n IH]; intros k s acc Hq Hp Hk.
  - cbn. exists s. auto 10.
  - cbn [seq add_list]. rewrite (get_if_entry s q l k Hq) by lia.
    assert (exists x, nth_error l k = Some x) as [x Ex].
    { destruct (nth_error l k) eqn:E; [eauto|]. apply nth_error_None in E. lia. }
    rewrite Ex.
    set (s1 := if dhas _ _ then _ else _).
    assert (imp_list s1 p = map entry (addnew acc x) /\ imp_list s1 q = map entry l /\ provided_by s1 = provided_by s /\ resolved s1 = resolved s /\ m_if s1 = m_if s /\ reported s1 = reported s /\
      (forall y, y <> p -> imp_list s1 y = imp_list s y)) as (H1 & H2 & H3 & H4 & H5 & H6 & H7).
    { pose proof (dict_add acc x) as Hd. unfold s1. rewrite Hp. destruct (dhas (map entry acc) (nm x)).
      - rewrite Hp. auto 10.
      - cbn. rewrite updf_eq, updf_neq by exact Hpq. repeat split; auto. intros y Hy. now rewrite updf_neq by congruence. }
    destruct (IH (S k) s1 (addnew acc x) H2 H1 ltac:(lia)) as (s' & G1 & G2 & G3 & G4 & G5 & G6 & G7).
    exists s'. split; [exact G1|]. split; [|repeat split; try congruence; intros y Hy; rewrite G7, H7; auto].
    rewrite G2. f_equal.
    assert (skipn k l = x :: skipn (S k) l) as ->.
    { clear - Ex. revert l Ex. induction k as [|k IH]; intros [|y l] Ex; cbn in *; try discriminate; [now injection Ex as ->|now apply IH]. }
    reflexivity.
Qed.

Lemma about_app x a b : about x (a ++ b) = about x a ++ about x b.
Proof. apply filter_app. Qed.
Lemma about_errs_same x : about x (errs_of x) = errs_of x.
Proof. unfold about, errs_of. destruct (_ <? _)%Z, (_ && _); cbn; rewrite ?Nat.eqb_refl; reflexivity. Qed.
Lemma about_errs_other x y : x <> y -> about x (errs_of y) = [].
Proof. intros H. unfold about, errs_of. destruct (_ <? _)%Z, (_ && _); cbn; destruct (Nat.eqb_spec x y); auto; contradiction. Qed.

Lemma finish_ok s p : resolved s p = false -> imp_list s p = map entry (order p) -> m_if s p = None -> about p (reported s) = [] ->
  ok_at (finish mn mx s p) p /\ resolved (finish mn mx s p) p = true /\ provided_by (finish mn mx s p) = provided_by s /\
  (forall x, x <> p -> same_at s (finish mn mx s p) x).
Proof.
  intros Hr Hi Hm Ha.
  assert (Hrep : reported (finish mn mx s p) = reported s ++ errs_of p).
  { unfold finish, errs_of, psize. cbn [reported]. now rewrite Hi, map_length. }
  assert (Hres : resolved (finish mn mx s p) p = true) by (cbn; apply updf_eq).
  split; [|split; [exact Hres|split; [reflexivity|]]].
  - unfold ok_at. rewrite Hres. split; [exact Hi|]. split.
    + cbn [finish m_if]. unfold psize. rewrite Hi, map_length. destruct (Z.ltb_spec 0 (Z.of_nat (length (order p)))) as [E|E].
      * rewrite updf_eq. change 0%Z with (Z.of_nat 0). rewrite (get_if_entry s p (order p) 0 Hi) by lia. destruct (order p); reflexivity.
      * rewrite Hm. destruct (order p); [reflexivity|cbn in E; lia].
    + rewrite Hrep, about_app, Ha. apply about_errs_same.
  - intros x Hx. unfold same_at. split; [reflexivity|]. split; [cbn; now rewrite updf_neq by congruence|]. split.
    + cbn [finish m_if]. destruct (0 <? psize s p)%Z; [|reflexivity]. now rewrite updf_neq by congruence.
    + rewrite Hrep, about_app, about_errs_other by exact Hx. apply app_nil_r.
Qed.

Lemma resolve_ok fuel : forall p s, rank p < fuel ->
  (forall x, provided_by s x = map entry (edges log x)) ->
  (forall x, rank x <= rank p -> ok_at s x) ->
  exists s', resolve fuel s p = Some s' /\ provided_by s' = provided_by s /\ resolved s' p = true /\
    (forall x, rank x <= rank p -> ok_at s' x) /\
    (forall x, rank p <= rank x -> x <> p -> same_at s s' x) /\
    (forall x, resolved s x = true -> resolved s' x = true).
Proof.
  induction fuel as [|fuel IH]; intros p s Hf Hprov Hok; [lia|].
  cbn [PortModel.resolve]. destruct (resolved s p) eqn:Er.
  { exists s. repeat split; auto; intros; apply same_refl. }
  assert (Hp := Hok p (le_n _)). unfold ok_at in Hp. rewrite Er in Hp. destruct Hp as (Hpi & Hpm & Hpa).
  assert (fin : forall s1, provided_by s1 = provided_by s -> resolved s1 p = false -> imp_list s1 p = map entry (order p) -> m_if s1 p = None ->
    about p (reported s1) = [] -> (forall x, rank x < rank p -> ok_at s1 x) -> (forall x, rank p <= rank x -> x <> p -> same_at s s1 x) ->
    (forall x, resolved s x = true -> resolved s1 x = true) ->
    exists s', Some (finish mn mx s1 p) = Some s' /\ provided_by s' = provided_by s /\ resolved s' p = true /\
    (forall x, rank x <= rank p -> ok_at s' x) /\ (forall x, rank p <= rank x -> x <> p -> same_at s s' x) /\
    (forall x, resolved s x = true -> resolved s' x = true)).
  { intros s1 G1 G2 G3 G4 G5 G6 G7 G8. destruct (finish_ok s1 p G2 G3 G4 G5) as (F1 & F2 & F3 & F4).
    exists (finish mn mx s1 p). split; [reflexivity|]. split; [congruence|]. split; [exact F2|]. split; [|split].
    - intros x Hx. destruct (Nat.eq_dec x p) as [->|Hne]; [exact F1|].
      apply (same_ok s1); [now apply F4|]. destruct (Nat.eq_dec (rank x) (rank p)) as [E|E]; [|apply G6; lia].
      apply (same_ok s); [apply G7; [lia|exact Hne]|]. now apply Hok.
    - intros x Hx Hne. eapply same_trans; [now apply G7|now apply F4].
    - intros x Hx. destruct (Nat.eq_dec x p) as [->|Hne]; [congruence|].
      destruct (F4 x Hne) as (_ & -> & _). now apply G8. }
  destruct (is_imp kd p) eqn:Ei.
  - cbn [option_map]. apply fin; cbn [provided_by resolved imp_list m_if reported set_imps]; auto.
    + rewrite updf_eq, Hpi, order_eq, Ei. reflexivity.
    + intros x Hx. assert (x <> p) by (intros ->; lia). apply (same_ok s); [|apply Hok; lia].
      unfold same_at. cbn. rewrite updf_neq by congruence. auto.
    + intros x _ Hne. unfold same_at. cbn. rewrite updf_neq by congruence. auto.
  - (* the loop over the providers *)
    match goal with |- context [option_map _ (?F (provided_by s p) s)] => set (go := F) end.
    assert (loop : forall l s0 acc, (forall q, In q l -> In q (edges log p)) ->
      provided_by s0 = provided_by s -> resolved s0 p = false -> imp_list s0 p = map entry acc -> m_if s0 p = None -> about p (reported s0) = [] ->
      (forall x, rank x < rank p -> ok_at s0 x) -> (forall x, rank p <= rank x -> x <> p -> same_at s s0 x) ->
      (forall x, resolved s x = true -> resolved s0 x = true) ->
      exists s1, go (map entry l) s0 = Some s1 /\
        provided_by s1 = provided_by s /\ resolved s1 p = false /\ imp_list s1 p = map entry (merge acc (flat_map order l)) /\ m_if s1 p = None /\ about p (reported s1) = [] /\
        (forall x, rank x < rank p -> ok_at s1 x) /\ (forall x, rank p <= rank x -> x <> p -> same_at s s1 x) /\
        (forall x, resolved s x = true -> resolved s1 x = true)).
    { induction l as [|q l IHl]; intros s0 acc Hl H1 H2 H3 H4 H5 H6 H7 H8.
      - cbn. exists s0. auto 12.
      - assert (Hq : rank q < rank p) by (apply Hrank, edges_in, Hl; now left).
        destruct (IH q s0) as (s1 & E1 & A1 & A2 & A3 & A4 & A5); [lia|now rewrite H1|intros x Hx; apply H6; lia|].
        unfold go at 1. cbn [map]. unfold entry at 1. fold go. cbn [flat_map]. rewrite E1.
        assert (Hpq : p <> q) by (intros ->; lia).
        assert (Hsp : same_at s0 s1 p) by (apply A4; [lia|exact Hpq]). destruct Hsp as (B1 & B2 & B3 & B4).
        assert (Hqo := A3 q (le_n _)). unfold ok_at in Hqo. rewrite A2 in Hqo. destruct Hqo as (Hqi & _ & _).
        assert (Hlen : length (imp_list s1 q) = length (order q)) by (rewrite Hqi; apply map_length). rewrite Hlen.
        destruct (add_list_ok p q (order q) Hpq (length (order q)) 0 s1 acc Hqi) as (s2 & E2 & D1 & D2 & D3 & D4 & D5 & D6); [congruence|lia|].
        rewrite E2. cbn [skipn] in D1. rewrite firstn_all in D1.
        assert (Hs2 : forall x, x <> p -> same_at s1 s2 x) by (intros x Hx; unfold same_at; rewrite D3, D4, D5, D6 by exact Hx; auto).
        destruct (IHl s2 (merge acc (order q))) as (s3 & E3 & R); clear IHl.
        + intros y Hy. apply Hl. now right.
        + congruence.
        + rewrite D3. congruence.
        + exact D1.
        + rewrite D4. congruence.
        + rewrite D5. congruence.
        + intros x Hx. apply (same_ok s1); [apply Hs2; intros ->; lia|].
          destruct (le_lt_dec (rank x) (rank q)) as [Hle|Hlt]; [now apply A3|].
          apply (same_ok s0); [apply A4; [lia|intros ->; lia]|]. apply H6. lia.
        + intros x Hx Hne. eapply same_trans; [now apply H7|]. eapply same_trans; [apply A4; [lia|intros ->; lia]|]. now apply Hs2.
        + intros x Hx. rewrite D3. now apply A5, H8.
        + exists s3. split; [exact E3|]. unfold merge in *. now rewrite fold_left_app. }
    rewrite Hprov. destruct (loop (edges log p) s []) as (s1 & E1 & R1 & R2 & R3 & R4 & R5 & R6 & R7 & R8); auto.
    + intros; apply Hok; lia.
    + intros; apply same_refl.
    + rewrite E1. cbn [option_map]. apply fin; auto. rewrite R3, order_eq, Ei. reflexivity.
Qed.

Lemma resolve_all_ok ps : forall fuel s, (forall p, In p ps -> rank p < fuel) ->
  (forall x, provided_by s x = map entry (edges log x)) -> (forall x, ok_at s x) ->
  exists s', resolve_all kd nm mn mx fuel s ps = Some s' /\ (forall x, provided_by s' x = map entry (edges log x)) /\ (forall x, ok_at s' x) /\
    (forall p, In p ps -> resolved s' p = true) /\ (forall p, resolved s p = true -> resolved s' p = true).
Proof.
  induction ps as [|p ps IH]; intros fuel s Hf Hprov Hok.
  - cbn. exists s. repeat split; auto; intros p [].
  - destruct (resolve_ok fuel p s) as (s1 & E1 & A1 & A2 & A3 & A4 & A5); [apply Hf; now left|assumption|intros; apply Hok|].
    destruct (IH fuel s1) as (s2 & E2 & B1 & B2 & B3 & B4).
    + intros; apply Hf. now right.
    + intros x. now rewrite A1.
    + intros x. destruct (le_lt_dec (rank x) (rank p)) as [H|H]; [now apply A3|]. apply (same_ok s); [apply A4; [lia|intros ->; lia]|auto].
    + exists s2. cbn [resolve_all]. rewrite E1. repeat split; auto. intros x [<-|Hx]; auto.
Qed.
Lemma start_ok x : ok_at (connect_all ports0 log) x.
Proof.
  destruct (connect_all_rest log) as (E1 & E2 & E3 & E4). unfold ok_at. rewrite E2, E1, E3, E4. auto.
Qed.
End R.
End P.

(** ** C63 *)
Definition report_dec : forall a b : nat * cerr, {a = b} + {a <> b}.
Proof. repeat decide equality. Defined.
Section C63.
Context (kd : nat -> kind) (nm : nat -> nat) (mask : nat -> Z) (mn mx : nat -> Z).
(** Full names identify ports. *)
Context (nm_inj : forall p q, nm p = nm q -> p = q).
(** Ports are connected by any calls, and then resolved in any order. *)
Definition elaborated (log : list (nat * nat)) (order : list nat) (s : ports) : Prop :=
  exists fuel, resolve_all kd nm mn mx fuel (connect_all kd nm mask ports0 log) order = Some s.

Lemma max_rank (rank : nat -> nat) ps : exists n, forall p, In p ps -> rank p < n.
Proof.
  induction ps as [|p ps [n Hn]]; [exists 0; intros p []|].
  exists (Nat.max n (S (rank p))). intros q [->|Hq]; [lia|]. specialize (Hn q Hq). lia.
Qed.
Lemma resolve_fuel_S fuel : forall s p s', resolve kd nm mn mx fuel s p = Some s' -> resolve kd nm mn mx (S fuel) s p = Some s'.
Proof.
  induction fuel as [|k IH]; intros s p s' H; [discriminate H|].
  cbn [resolve] in H. remember (S k) as k1. cbn [resolve]. destruct (resolved s p); [exact H|].
  destruct (is_imp kd p); [exact H|].
  match type of H with option_map _ (?F _ s) = _ => set (go := F) in H end.
  match goal with |- option_map _ (?F _ s) = _ => set (go' := F) end.
  assert (G : forall l s0 s1, go l s0 = Some s1 -> go' l s0 = Some s1).
  { induction l as [|[a q] l IHl]; intros s0 s1 E; [exact E|].
    unfold go in E. fold go in E. unfold go'. fold go'. destruct (resolve kd nm mn mx k s0 q) eqn:Er; [|discriminate E].
    apply IH in Er. subst k1. rewrite Er. destruct (add_list nm p0 p q _); [|discriminate E]. now apply IHl. }
  destruct (go (provided_by s p) s) eqn:E; [|discriminate H]. apply G in E. rewrite E. exact H.
Qed.
Lemma resolve_fuel_le f g s p s' : f <= g -> resolve kd nm mn mx f s p = Some s' -> resolve kd nm mn mx g s p = Some s'.
Proof. induction 1; auto using resolve_fuel_S. Qed.
Lemma resolve_all_le f g ps : f <= g -> forall s s', resolve_all kd nm mn mx f s ps = Some s' -> resolve_all kd nm mn mx g s ps = Some s'.
Proof.
  intros Hfg. induction ps as [|p ps IH]; intros s s' H; [exact H|]. cbn [resolve_all] in *.
  destruct (resolve kd nm mn mx f s p) eqn:E; [|discriminate H]. rewrite (resolve_fuel_le f g _ _ _ Hfg E). now apply IH.
Qed.

(** Elaboration ends for every acyclic graph of connections. *)
Theorem C63_terminates log ord : acyclic kd mask log -> exists s, elaborated log ord s.
Proof.
  intros [rank Hr]. destruct (max_rank rank ord) as [n Hn].
  destruct (resolve_all_ok kd nm mask mn mx nm_inj log rank Hr ord n (connect_all kd nm mask ports0 log)) as (s & E & _); eauto.
  - intros x. now apply connect_all_prov.
  - intros x. now apply start_ok.
  - exists s, n. exact E.
Qed.
Lemma elaborated_ok log ord s : forall rank, (forall p q, linked kd mask log p q -> rank q < rank p) -> elaborated log ord s ->
  forall p, In p ord -> resolved s p = true /\ ok_at kd nm mask mn mx log rank s p.
Proof.
  intros rank Hr [f Hf] p Hp. destruct (max_rank rank ord) as [n Hn].
  destruct (resolve_all_ok kd nm mask mn mx nm_inj log rank Hr ord (Nat.max n f) (connect_all kd nm mask ports0 log)) as (s' & E & _ & B2 & B3 & _).
  - intros q Hq. specialize (Hn q Hq). lia.
  - intros x. now apply connect_all_prov.
  - intros x. now apply start_ok.
  - apply (resolve_all_le f (Nat.max n f)) in Hf; [|lia]. assert (s' = s) as -> by congruence. auto.
Qed.
(** A broadcast calls every implementation that can be reached, each exactly once, and
    nothing else; no fatal error. *)
Theorem C63_broadcast log ord s p : acyclic kd mask log -> elaborated log ord s -> In p ord ->
  exists called, broadcast s p = map Some called /\ NoDup called /\
    forall i, In i called <-> reach kd mask log p i /\ kd i = KImp.
Proof.
  intros [rank Hr] He Hp. destruct (elaborated_ok log ord s rank Hr He p Hp) as [Hres Hok].
  unfold ok_at in Hok. rewrite Hres in Hok. destruct Hok as (Hi & _ & _).
  exists (order kd mask log rank p). split; [|split; [eapply order_nodup; eauto|eapply order_reach; eauto]].
  unfold broadcast. rewrite Hi, map_length.
  assert (G : forall l, map (fun i => get_if s p (Z.of_nat i)) (seq 0 (length l)) = map (fun i => nth_error l i) (seq 0 (length l)) -> 
     map (fun i => get_if s p (Z.of_nat i)) (seq 0 (length l)) = map Some l).
  { intros l ->. clear. induction l as [|x l IH]; [reflexivity|]. cbn [length seq map nth_error]. f_equal.
    rewrite <- seq_shift, map_map. cbn [nth_error]. exact IH. }
  apply G. apply map_ext_in. intros i Hin. apply in_seq in Hin. apply (get_if_entry nm); [exact Hi|lia].
Qed.
(** The order of elaboration does not matter, not even for the order of the calls. *)
Theorem C63_order_independent log o1 o2 s1 s2 p : acyclic kd mask log -> elaborated log o1 s1 -> elaborated log o2 s2 -> In p o1 -> In p o2 ->
  broadcast s1 p = broadcast s2 p.
Proof.
  intros [rank Hr] H1 H2 Hp1 Hp2.
  destruct (elaborated_ok log o1 s1 rank Hr H1 p Hp1) as [R1 K1], (elaborated_ok log o2 s2 rank Hr H2 p Hp2) as [R2 K2].
  unfold ok_at in *. rewrite R1 in K1. rewrite R2 in K2. destruct K1 as (I1 & _), K2 as (I2 & _).
  unfold broadcast. rewrite I1, I2. apply map_ext. intros i. unfold get_if, psize. now rewrite I1, I2.
Qed.
(** A connection made afterwards is accepted without a report, and has no effect. *)
Theorem C63_late log ord s p a b : acyclic kd mask log -> elaborated log ord s -> In p ord ->
  let s' := connect kd nm mask s a b in
  reported s' = reported s /\ broadcast s' p = broadcast s p /\
  (exists fuel, exists s2, resolve kd nm mn mx fuel s' p = Some s2 /\ broadcast s2 p = broadcast s p).
Proof.
  intros [rank Hr] He Hp. destruct (elaborated_ok log ord s rank Hr He p Hp) as [Hres _]. cbn zeta.
  assert (E : resolved (connect kd nm mask s a b) p = true /\ imp_list (connect kd nm mask s a b) = imp_list s /\ reported (connect kd nm mask s a b) = reported s)
    by (unfold connect; destruct (connect_error kd mask a b); auto).
  destruct E as (E1 & E2 & E3).
  assert (Eb : broadcast (connect kd nm mask s a b) p = broadcast s p).
  { unfold broadcast. rewrite E2. apply map_ext. intros i. unfold get_if, psize. now rewrite E2. }
  split; [exact E3|]. split; [exact Eb|]. exists 1, (connect kd nm mask s a b). cbn [resolve]. now rewrite E1.
Qed.
(** ** C104: the number of implementations is checked, and the first is used. *)
Theorem C104_count log ord s p : acyclic kd mask log -> elaborated log ord s -> In p ord ->
  exists imps, NoDup imps /\ (forall i, In i imps <-> reach kd mask log p i /\ kd i = KImp) /\
    (count_occ report_dec (reported s) (p, TooFew) = if (Z.of_nat (length imps) <? mn p)%Z then 1 else 0) /\
    (count_occ report_dec (reported s) (p, TooMany) = if (mx p =? -1)%Z then 0 else if (mx p <? Z.of_nat (length imps))%Z then 1 else 0).
Proof.
  intros [rank Hr] He Hp. destruct (elaborated_ok log ord s rank Hr He p Hp) as [Hres Hok].
  unfold ok_at in Hok. rewrite Hres in Hok. destruct Hok as (_ & _ & Hrep).
  exists (order kd mask log rank p). split; [eapply order_nodup; eauto|]. split; [eapply order_reach; eauto|].
  assert (G : forall e dec, count_occ dec (reported s) (p, e) = count_occ dec (errs_of kd mask mn mx log rank p) (p, e)).
  { intros e dec. rewrite <- Hrep. unfold about. generalize (reported s). induction l as [|x l IH]; [reflexivity|]. cbn [filter].
    destruct (Nat.eqb_spec p (fst x)) as [E|E].
    - cbn. destruct (dec x (p, e)); congruence.
    - cbn. destruct (dec x (p, e)) as [->|]; [cbn in E; congruence|exact IH]. }
  rewrite !G. unfold errs_of. destruct (_ <? mn p)%Z, (mx p =? -1)%Z, (mx p <? _)%Z; cbn;
    repeat match goal with |- context [if ?d then _ else _] => destruct d; try congruence end; auto.
Qed.
(** get_if gives the implementations in the order of the broadcast, and nothing for any
    index that has none. *)
Theorem C104_get_if log ord s p : acyclic kd mask log -> elaborated log ord s -> In p ord ->
  exists imps, broadcast s p = map Some imps /\
    forall k, get_if s p k = if (0 <=? k)%Z then nth_error imps (Z.to_nat k) else None.
Proof.
  intros Ha He Hp. destruct Ha as [rank Hr]. destruct (elaborated_ok log ord s rank Hr He p Hp) as [Hres Hok].
  unfold ok_at in Hok. rewrite Hres in Hok. destruct Hok as (Hi & _).
  destruct (C63_broadcast log ord s p) as (called & HB & _); [now exists rank|exact He|exact Hp|].
  exists called. split; [exact HB|]. unfold broadcast in HB. rewrite Hi, map_length in HB. set (l := order kd mask log rank p) in *.
  assert (LC : length called = length l) by (apply (f_equal (@length _)) in HB; rewrite !map_length, seq_length in HB; auto).
  intros k. destruct (Z.leb_spec 0 k) as [K|K].
  - destruct (lt_dec (Z.to_nat k) (length l)) as [L|L].
    + apply (f_equal (fun x => nth_error x (Z.to_nat k))) in HB. rewrite !nth_error_map in HB.
      rewrite (nth_error_nth' _ 0) in HB by now rewrite seq_length. rewrite seq_nth in HB by exact L. cbn [option_map Nat.add] in HB.
      rewrite Z2Nat.id in HB by exact K. destruct (nth_error called (Z.to_nat k)) as [x|] eqn:E; cbn in HB; [now injection HB|discriminate].
    + rewrite (proj2 (nth_error_None _ _)) by lia. unfold get_if, psize. rewrite Hi, map_length.
      destruct (Z.eqb_spec (Z.of_nat (length l)) 0); [reflexivity|]. destruct (Z.leb_spec (Z.of_nat (length l)) k); [|lia].
      now rewrite orb_true_r.
  - unfold get_if. destruct (psize s p =? 0)%Z; [reflexivity|]. now rewrite (proj2 (Z.ltb_lt k 0) K).
Qed.
(** Calls through a port with one implementation go to it. *)
Theorem C104_single log ord s p i : acyclic kd mask log -> elaborated log ord s -> In p ord ->
  reach kd mask log p i -> kd i = KImp -> (forall j, reach kd mask log p j -> kd j = KImp -> j = i) -> m_if s p = Some i.
Proof.
  intros [rank Hr] He Hp Hri Hki Hu. destruct (elaborated_ok log ord s rank Hr He p Hp) as [Hres Hok].
  unfold ok_at in Hok. rewrite Hres in Hok. destruct Hok as (_ & -> & _).
  assert (Ho : forall i, In i (order kd mask log rank p) <-> reach kd mask log p i /\ kd i = KImp) by (eapply order_reach; eauto).
  destruct (order kd mask log rank p) as [|x l]; [destruct (proj2 (Ho i) (conj Hri Hki))|].
  cbn. f_equal. destruct (proj1 (Ho x) (or_introl eq_refl)). auto.
Qed.
End C63.
Lemma elaborated_ex kd nm mask mn mx log ord (P : ports -> Prop) fuel :
  match resolve_all kd nm mn mx fuel (connect_all kd nm mask ports0 log) ord with Some s => P s | None => False end ->
  exists s, elaborated kd nm mask mn mx log ord s /\ P s.
Proof.
  destruct (resolve_all _ _ _ _ _ _ _) as [s|] eqn:E; [|intros []]. intros H. exists s. split; [now exists fuel|exact H].
Qed.
(** Two ports with the same full name: one of them is lost. *)
Theorem C63_names_needed :
  let kd := fun p => match p with 0 => KPort | _ => KImp end in
  exists s, elaborated kd (fun p => match p with 0 => 0 | _ => 1 end) (fun _ => 1%Z) (fun _ => 0%Z) (fun _ => (-1)%Z) [(0, 1); (0, 2)] [0; 1; 2] s /\
    broadcast s 0 = [Some 2] /\ reported s = [].
Proof. apply (elaborated_ex _ _ _ _ _ _ _ _ 3). vm_compute. split; reflexivity. Qed.
(** Ports connected to each other: connect accepts it, elaboration never ends. *)
Theorem C63_cycle_diverges :
  let kd := fun _ => KPort in
  connect_error kd (fun _ => 1%Z) 0 1 = None /\ connect_error kd (fun _ => 1%Z) 1 0 = None /\
  forall s, ~ elaborated kd (fun p => p) (fun _ => 1%Z) (fun _ => 0%Z) (fun _ => (-1)%Z) [(0, 1); (1, 0)] [0] s.
Proof.
  split; [reflexivity|]. split; [reflexivity|]. intros s [fuel H].
  set (s0 := connect_all _ _ _ _ _) in H.
  assert (P0 : provided_by s0 0 = [(1, 1)]) by reflexivity. assert (P1 : provided_by s0 1 = [(0, 0)]) by reflexivity.
  assert (R0 : resolved s0 0 = false) by reflexivity. assert (R1 : resolved s0 1 = false) by reflexivity.
  assert (G : forall fuel, resolve (fun _ => KPort) (fun p => p) (fun _ => 0%Z) (fun _ => (-1)%Z) fuel s0 0 = None /\
    resolve (fun _ => KPort) (fun p => p) (fun _ => 0%Z) (fun _ => (-1)%Z) fuel s0 1 = None).
  { clear H. clearbody s0. induction fuel0 as [|k [IH0 IH1]]; [split; reflexivity|].
    split; cbn [resolve]; [rewrite R0, P0|rewrite R1, P1]; cbn [is_imp]; [rewrite IH1|rewrite IH0]; reflexivity. }
  cbn [resolve_all] in H. rewrite (proj1 (G fuel)) in H. discriminate H.
Qed.
Example C63_example :
  (* port 0 reaches imp 3 through exports 1 and 2, and imp 4 directly *)
  let kd := fun p => match p with 0 => KPort | 1 | 2 => KExport | _ => KImp end in
  let log := [(0, 1); (0, 2); (1, 3); (2, 3); (0, 4)] in
  acyclic kd (fun _ => 1%Z) log /\
  exists s, elaborated kd (fun p => p) (fun _ => 1%Z) (fun _ => 0%Z) (fun _ => (-1)%Z) log [4; 0; 1; 2; 3] s /\ broadcast s 0 = [Some 3; Some 4].
Proof.
  split.
  - exists (fun p => 10 - p). intros p q [H _]. cbn in H. repeat (destruct H as [H|H]; [injection H as <- <-; cbn; lia|]). contradiction.
  - apply (elaborated_ex _ _ _ _ _ _ _ _ 5). vm_compute. reflexivity.
Qed.
Example C104_example :
  let kd := fun p => match p with 0 => KPort | _ => KImp end in
  exists s, elaborated kd (fun p => p) (fun _ => 1%Z) (fun _ => 1%Z) (fun _ => 1%Z) [(0, 2); (0, 1)] [0; 1; 2; 3] s /\
    (reported s = [(0, TooMany)] /\ m_if s 0 = Some 2).
Proof. apply (elaborated_ex _ _ _ _ _ _ _ _ 3). vm_compute. split; reflexivity. Qed.
Example C104_example_few :
  let kd := fun p => match p with 0 => KPort | _ => KImp end in
  exists s, elaborated kd (fun p => p) (fun _ => 1%Z) (fun _ => 1%Z) (fun _ => 1%Z) [] [0; 1] s /\ reported s = [(0, TooFew)].
Proof. apply (elaborated_ex _ _ _ _ _ _ _ _ 3). vm_compute. reflexivity. Qed.
Print Assumptions C63_terminates.
Print Assumptions C63_broadcast.
Print Assumptions C104_get_if.
Print Assumptions C63_order_independent.
Print Assumptions C63_late.
Print Assumptions C63_names_needed.
Print Assumptions C63_cycle_diverges.
Print Assumptions C104_count.
Print Assumptions C104_single.
