(** Proofs about the component hierarchy. *)
From Coq Require Import ZArith List Bool Arith Ascii Lia Sorted.
From Verif Require Import Prelude SvModel TreeModel TreeSpec.
Import ListNotations.
Local Open Scope nat_scope.

Lemma str_eqb_spec a : forall b, reflect (a = b) (str_eqb a b).
Proof.
  induction a as [|x a IH]; intros [|y b]; cbn; try (constructor; congruence).
  destruct (Ascii.eqb_spec x y) as [->|N]; cbn; [|constructor; congruence].
  destruct (IH b) as [->|N]; constructor; congruence.
Qed.
Lemma set_at_length {A} (l : list A) : forall i x, length (set_at l i x) = length l.
Proof. induction l as [|y l IH]; intros [|i] x; cbn; auto. Qed.
Lemma set_at_nth {A} (l : list A) : forall i x j, nth_error (set_at l i x) j =
  if Nat.eqb i j then (match nth_error l j with Some _ => Some x | None => None end) else nth_error l j.
Proof. induction l as [|y l IH]; intros [|i] x [|j]; cbn; auto. destruct (Nat.eqb i j); reflexivity. Qed.
Lemma get_kid_in l n c : get_kid l n = Some c -> In (n, c) l.
Proof.
  induction l as [|[m d] l IH]; cbn; [discriminate|]. destruct (str_eqb_spec m n) as [->|N]; [|auto]. intros E. injection E as ->. now left.
Qed.
Lemma get_kid_none l n : get_kid l n = None <-> ~ In n (map fst l).
Proof.
  induction l as [|[m d] l IH]; cbn; [tauto|]. destruct (str_eqb_spec m n) as [->|N]; [split; [discriminate|tauto]|]. rewrite IH. tauto.
Qed.
Lemma get_kid_complete l n c : NoDup (map fst l) -> In (n, c) l -> get_kid l n = Some c.
Proof.
  induction l as [|[m d] l IH]; cbn; [tauto|]. intros ND H. inversion ND as [|? ? N1 N2]; subst. destruct (str_eqb_spec m n) as [->|N].
  - destruct H as [H|H]; [congruence|]. destruct N1. now apply (in_map fst) in H.
  - destruct H as [H|H]; [congruence|]. now apply IH.
Qed.

(** ** The invariant *)
Definition strip (x : comp) := (leaf x, full x, parent x, kids x).
Definition same (t t' : tree) : Prop := map strip (comps t) = map strip (comps t') /\ built t = built t' /\ insts t = insts t'.
Lemma same_refl t : same t t.
Proof. repeat split. Qed.
Lemma same_sym t t' : same t t' -> same t' t.
Proof. intros (A & B & C). now repeat split. Qed.
Lemma same_trans a b c : same a b -> same b c -> same a c.
Proof. intros (A1 & A2 & A3) (B1 & B2 & B3). repeat split; congruence. Qed.
Lemma same_nth t t' c x : same t t' -> nth_error (comps t) c = Some x -> exists x', nth_error (comps t') c = Some x' /\ strip x' = strip x.
Proof.
  intros (E & _) H. apply (map_nth_error strip) in H. rewrite E in H. rewrite nth_error_map in H.
  destruct (nth_error (comps t') c) as [x'|]; [|discriminate]. exists x'. cbn in H. split; congruence.
Qed.
Lemma same_length t t' : same t t' -> length (comps t) = length (comps t').
Proof. intros (E & _). apply (f_equal (@length _)) in E. now rewrite !map_length in E. Qed.
Lemma setptr_same t c z : same (setptr t c z) t.
Proof.
  unfold setptr. destruct (nth_error (comps t) c) as [x|] eqn:E; [|apply same_refl]. split; [|split; reflexivity]. cbn [comps].
  revert c E. induction (comps t) as [|y l IH]; intros [|c] E; cbn in *; try discriminate; [injection E as ->; reflexivity|]. f_equal. eauto.
Qed.

Record wf (t : tree) : Prop := Wf {
  w_top : exists x, nth_error (comps t) 0 = Some x /\ parent x = None;
  w_up : forall c x, nth_error (comps t) c = Some x -> c <> 0 ->
    leaf x <> [] /\ exists p px, parent x = Some p /\ nth_error (comps t) p = Some px /\ In (leaf x, c) (kids px) /\ full x = full_under px (Nat.eqb p 0) (leaf x);
  w_down : forall p px n c, nth_error (comps t) p = Some px -> In (n, c) (kids px) ->
    p < c /\ exists x, nth_error (comps t) c = Some x /\ leaf x = n /\ parent x = Some p;
  w_names : forall p px, nth_error (comps t) p = Some px -> NoDup (map fst (kids px));
  w_sorted : forall p px, nth_error (comps t) p = Some px -> StronglySorted lt (map snd (kids px))
}.
Lemma same_wf t t' : same t t' -> wf t -> wf t'.
Proof.
  intros S [W1 W2 W3 W4 W5]. pose proof (same_sym _ _ S) as S'. split.
  - destruct W1 as (x & H & P). destruct (same_nth _ _ _ _ S H) as (x' & H' & E). exists x'. split; [exact H'|]. unfold strip in E. congruence.
  - intros c x' H' N. destruct (same_nth _ _ _ _ S' H') as (x & H & E). destruct (W2 c x H N) as (L & p & px & P1 & P2 & P3 & P4).
    destruct (same_nth _ _ _ _ S P2) as (px' & Q & E2). injection E as E1 E3 E4 E5. injection E2 as F1 F2 F3 F4. split; [congruence|].
    exists p, px'. split; [congruence|]. split; [exact Q|]. split; [rewrite F4; congruence|].
    rewrite <- E3, P4. unfold full_under, get_full_name. rewrite F1, F2, E1. reflexivity.
  - intros p px' n c H' HI. destruct (same_nth _ _ _ _ S' H') as (px & H & E). injection E as E1 E3 E4 E5.
    rewrite <- E5 in HI. destruct (W3 p px n c H HI) as (L & x & X1 & X2 & X3). split; [exact L|].
    destruct (same_nth _ _ _ _ S X1) as (x' & Y & F). injection F as F1 F2 F3 F4. exists x'. split; [exact Y|]. split; congruence.
  - intros p px' H'. destruct (same_nth _ _ _ _ S' H') as (px & H & E). injection E as E1 E3 E4 E5. rewrite <- E5. eauto.
  - intros p px' H'. destruct (same_nth _ _ _ _ S' H') as (px & H & E). injection E as E1 E3 E4 E5. rewrite <- E5. eauto.
Qed.
Lemma comps_wf t t' : comps t = comps t' -> wf t -> wf t'.
Proof. intros E [W1 W2 W3 W4 W5]. rewrite E in *. split; assumption. Qed.
Lemma wf_full t c x : wf t -> nth_error (comps t) c = Some x -> c <> 0 -> full x <> [].
Proof.
  intros W H N. destruct (w_up t W c x H N) as (L & p & px & _ & _ & _ & ->). unfold full_under. destruct (Nat.eqb p 0); [exact L|].
  destruct (get_full_name px); discriminate.
Qed.
Lemma wf0 n : wf (tree0 n).
Proof.
  split; cbn.
  - eexists. split; reflexivity.
  - intros [|[|c]] x H N; try discriminate; congruence.
  - intros [|[|p]] px n0 c H HI; try discriminate. injection H as <-. destruct HI.
  - intros [|[|p]] px H; try discriminate. injection H as <-. constructor.
  - intros [|[|p]] px H; try discriminate. injection H as <-. constructor.
Qed.
Section Steps.
Context (dec : nat -> str).
Notation step := (step dec).
Notation new := (new dec).
Definition real_name (t : tree) (name : str) (k : nat) : str :=
  match name with [] => ["C"; "O"; "M"; "P"; "_"]%char ++ dec (S (insts t) + k) | _ => name end.
Lemma real_name_nonempty t name k : real_name t name k <> [].
Proof. unfold real_name. now destruct name. Qed.
(** What a constructor does *)
Lemma new_spec t name p k : wf t ->
  let nm := real_name t name k in
  let t' := fst (new t name p k) in
  (exists px, nth_error (comps t) p = Some px /\ built t = false /\ ~ In nm (map fst (kids px)) /\
     snd (new t name p k) = [ONew (length (comps t))] /\ built t' = false /\ wf t' /\
     length (comps t') = S (length (comps t)) /\
     nth_error (comps t') p = Some (Comp (leaf px) (full px) (parent px) (kids px ++ [(nm, length (comps t))]) (ptr px)) /\
     nth_error (comps t') (length (comps t)) = Some (Comp nm (full_under px (Nat.eqb p 0) nm) (Some p) [] (-1)%Z) /\
     forall c, c <> p -> c <> length (comps t) -> nth_error (comps t') c = nth_error (comps t) c) \/
  (comps t' = comps t /\ built t' = built t /\ wf t' /\
   (snd (new t name p k) = [] /\ nth_error (comps t) p = None /\ built t = false \/
    snd (new t name p k) = [OFatal] /\ (built t = true \/ exists px, nth_error (comps t) p = Some px /\ In nm (map fst (kids px))))).
Proof.
  intros W. cbv zeta. pose proof (real_name_nonempty t name k) as NE. unfold TreeModel.new. destruct t as [cs bt n]. cbn [comps built insts] in *.
  assert (WI : forall m, wf (Tree cs bt m)) by (intros m; now apply (comps_wf (Tree cs bt n))).
  fold (real_name (Tree cs bt n) name k).
  change (match name with [] => ["C"; "O"; "M"; "P"; "_"]%char ++ dec (S n + k) | _ => name end) with (real_name (Tree cs bt n) name k).
  set (nm := real_name (Tree cs bt n) name k) in *. clearbody nm.
  destruct bt; [right; cbn [fst snd comps built]; split; [reflexivity|]; split; [reflexivity|]; split; [apply WI|]; right; auto|].
  destruct (nth_error cs p) as [px|] eqn:EP; [|right; cbn [fst snd comps built]; split; [reflexivity|]; split; [reflexivity|]; split; [apply WI|]; left; auto].
  destruct (get_kid (kids px) nm) as [d|] eqn:EK.
  - right. cbn [fst snd comps built]. split; [reflexivity|]. split; [reflexivity|]. split; [apply WI|]. right. split; [reflexivity|]. right.
    exists px. split; [reflexivity|]. apply get_kid_in in EK. now apply (in_map fst) in EK.
  - left. exists px. apply get_kid_none in EK. cbn [fst snd comps built]. split; [reflexivity|]. split; [reflexivity|]. split; [exact EK|]. split; [reflexivity|].
    split; [reflexivity|].
    set (px' := Comp (leaf px) (full px) (parent px) (kids px ++ [(nm, length cs)]) (ptr px)).
    set (nc := Comp nm (full_under px (Nat.eqb p 0) nm) (Some p) [] (-1)%Z).
    assert (LP : p < length cs) by (apply nth_error_Some; congruence).
    assert (N1 : nth_error (set_at cs p px' ++ [nc]) p = Some px').
    { rewrite nth_error_app1 by now rewrite set_at_length. rewrite set_at_nth, Nat.eqb_refl, EP. reflexivity. }
    assert (N2 : nth_error (set_at cs p px' ++ [nc]) (length cs) = Some nc).
    { rewrite nth_error_app2 by (rewrite set_at_length; lia). rewrite set_at_length, Nat.sub_diag. reflexivity. }
    assert (N3 : forall c, c <> p -> c <> length cs -> nth_error (set_at cs p px' ++ [nc]) c = nth_error cs c).
    { intros c C1 C2. assert (L : c < length cs \/ length cs < c) by lia. destruct L as [L|L].
      - rewrite nth_error_app1 by now rewrite set_at_length. rewrite set_at_nth. destruct (Nat.eqb_spec p c); [congruence|reflexivity].
      - rewrite (proj2 (nth_error_None cs c)) by lia. apply nth_error_None. rewrite app_length, set_at_length. cbn [length]. lia. }
    split; [|split; [rewrite app_length, set_at_length; cbn [length]; lia|auto]].
    change (wf (Tree (set_at cs p px' ++ [nc]) false (S n + k))).
    destruct W as [W1 W2 W3 W4 W5]. cbn [comps] in *.
    assert (UP : forall c x, nth_error cs c = Some x -> exists x', nth_error (set_at cs p px' ++ [nc]) c = Some x' /\
        leaf x' = leaf x /\ full x' = full x /\ parent x' = parent x /\ (forall e, In e (kids x) -> In e (kids x'))).
    { intros c x H. destruct (Nat.eq_dec c p) as [->|NP].
      - exists px'. rewrite N1. assert (x = px) as -> by congruence. cbn. repeat split; auto. intros e HE. apply in_or_app. now left.
      - assert (c <> length cs) by (intros ->; apply (proj2 (nth_error_None cs (length cs))) in H || (rewrite (proj2 (nth_error_None cs (length cs))) in H by lia; discriminate)).
        exists x. rewrite N3 by auto. auto. }
    assert (CL : forall c x, nth_error cs c = Some x -> c < length cs) by (intros; apply nth_error_Some; congruence).
    split; cbn [comps].
    + destruct W1 as (x & H & P). destruct (UP 0 x H) as (x' & H' & _ & _ & E & _). exists x'. split; [exact H'|congruence].
    + intros c x H N. destruct (Nat.eq_dec c (length cs)) as [->|NC].
      * rewrite N2 in H. injection H as <-. cbn [leaf parent full nc]. split; [exact NE|]. exists p, px'. split; [reflexivity|]. split; [exact N1|].
        split; [cbn; apply in_or_app; right; now left|]. reflexivity.
      * assert (exists x0, nth_error cs c = Some x0 /\ leaf x = leaf x0 /\ full x = full x0 /\ parent x = parent x0) as (x0 & X0 & X1 & X2 & X3).
        { destruct (Nat.eq_dec c p) as [->|NP]; [rewrite N1 in H; injection H as <-; exists px; auto|]. rewrite N3 in H by auto. eauto. }
        destruct (W2 c x0 X0 N) as (L & q & qx & Q1 & Q2 & Q3 & Q4). rewrite X1, X2, X3. split; [exact L|].
        destruct (UP q qx Q2) as (qx' & R1 & R2 & R3 & R4 & R5). exists q, qx'. split; [exact Q1|]. split; [exact R1|]. split; [now apply R5|].
        rewrite Q4. unfold full_under, get_full_name. now rewrite R2, R3.
    + intros q qx m c H HI. destruct (Nat.eq_dec q (length cs)) as [->|NC].
      * rewrite N2 in H. injection H as <-. destruct HI.
      * destruct (Nat.eq_dec q p) as [->|NP].
        -- rewrite N1 in H. injection H as <-. cbn [kids px'] in HI. apply in_app_iff in HI. destruct HI as [HI|[HI|[]]].
           ++ destruct (W3 p px m c EP HI) as (L & x & X1 & X2 & X3). split; [exact L|]. destruct (UP c x X1) as (x' & Y1 & Y2 & _ & Y3 & _). exists x'. split; [exact Y1|]. split; congruence.
           ++ injection HI as <- <-. split; [exact LP|]. exists nc. split; [exact N2|]. auto.
        -- rewrite N3 in H by auto. destruct (W3 q qx m c H HI) as (L & x & X1 & X2 & X3). split; [exact L|].
           destruct (UP c x X1) as (x' & Y1 & Y2 & _ & Y3 & _). exists x'. split; [exact Y1|]. split; congruence.
    + intros q qx H. destruct (Nat.eq_dec q (length cs)) as [->|NC]; [rewrite N2 in H; injection H as <-; constructor|].
      destruct (Nat.eq_dec q p) as [->|NP]; [|rewrite N3 in H by auto; eauto].
      rewrite N1 in H. injection H as <-. cbn [kids px']. rewrite map_app. cbn [map fst]. specialize (W4 p px EP).
      clear - W4 EK. induction (map fst (kids px)) as [|y l IH]; cbn; [constructor; [intros []|constructor]|].
      inversion W4; subst. constructor; [|apply IH; auto; intros X; apply EK; now right].
      intros HI. apply in_app_iff in HI. destruct HI as [HI|[->|[]]]; [contradiction|]. apply EK. now left.
    + intros q qx H. destruct (Nat.eq_dec q (length cs)) as [->|NC]; [rewrite N2 in H; injection H as <-; constructor|].
      destruct (Nat.eq_dec q p) as [->|NP]; [|rewrite N3 in H by auto; eauto].
      rewrite N1 in H. injection H as <-. cbn [kids px']. rewrite map_app. cbn [map snd]. pose proof (W5 p px EP) as W5p.
      assert (BD : forall e, In e (map snd (kids px)) -> e < length cs).
      { intros e HE. apply in_map_iff in HE. destruct HE as ([m c] & <- & HE). destruct (W3 p px m c EP HE) as (_ & x & X & _). cbn. eauto. }
      clear - W5p BD. induction (map snd (kids px)) as [|y l IH]; cbn; [repeat constructor|].
      inversion W5p as [|? ? S1 S2]; subst. constructor; [apply IH; auto; intros e HE; apply BD; now right|].
      apply Forall_app. split; [exact S2|]. constructor; [|constructor]. apply BD. now left.
Qed.
Lemma set_name_spec t c name : wf t ->
  (fst (set_name t c name) = t /\ (snd (set_name t c name) = [OError] \/ nth_error (comps t) c = None)) \/
  (exists x, c = 0 /\ nth_error (comps t) 0 = Some x /\ full x = [] /\ snd (set_name t c name) = [] /\
   fst (set_name t c name) = Tree (set_at (comps t) 0 (Comp name name (parent x) (kids x) (ptr x))) (built t) (insts t) /\
   wf (fst (set_name t c name))).
Proof.
  intros W. unfold set_name. destruct (nth_error (comps t) c) as [x|] eqn:E; [|left; auto].
  destruct (full x) eqn:F; [|left; auto]. right. exists x.
  assert (c = 0) as ->. { destruct (Nat.eq_dec c 0) as [|N]; [assumption|]. now destruct (wf_full t c x W E N). }
  split; [reflexivity|]. split; [exact E|]. split; [exact F|]. split; [reflexivity|]. split; [reflexivity|]. cbn [fst].
  set (x' := Comp name name (parent x) (kids x) (ptr x)). destruct W as [W1 W2 W3 W4 W5].
  assert (N0 : nth_error (set_at (comps t) 0 x') 0 = Some x') by (rewrite set_at_nth, E; reflexivity).
  assert (NS : forall c, c <> 0 -> nth_error (set_at (comps t) 0 x') c = nth_error (comps t) c).
  { intros [|c] N; [congruence|]. rewrite set_at_nth. reflexivity. }
  split; cbn [comps].
  - destruct W1 as (y & H & P). assert (y = x) as -> by congruence. exists x'. split; [exact N0|exact P].
  - intros d y H N. rewrite NS in H by exact N. destruct (W2 d y H N) as (L & p & px & P1 & P2 & P3 & P4). split; [exact L|].
    destruct (Nat.eq_dec p 0) as [->|NP]; [|exists p, px; rewrite NS by exact NP; auto].
    assert (px = x) as -> by congruence. exists 0, x'. split; [exact P1|]. split; [exact N0|]. split; [exact P3|]. exact P4.
  - intros p px m d H HI.
    assert (exists px0, nth_error (comps t) p = Some px0 /\ kids px0 = kids px) as (px0 & X1 & X2).
    { destruct (Nat.eq_dec p 0) as [->|NP]; [rewrite N0 in H; injection H as <-; exists x; auto|rewrite NS in H by exact NP; eauto]. }
    rewrite <- X2 in HI. destruct (W3 p px0 m d X1 HI) as (L & y & Y1 & Y2 & Y3). split; [exact L|]. exists y. rewrite NS by lia. auto.
  - intros p px H. destruct (Nat.eq_dec p 0) as [->|NP]; [rewrite N0 in H; injection H as <-; apply (W4 0 x E)|rewrite NS in H by exact NP; eauto].
  - intros p px H. destruct (Nat.eq_dec p 0) as [->|NP]; [rewrite N0 in H; injection H as <-; apply (W5 0 x E)|rewrite NS in H by exact NP; eauto].
Qed.

(** ** The walk of find_all() *)
Definition hit (t : tree) (pat : str) (c : nat) : bool :=
  match nth_error (comps t) c with
  | Some x => match uvm_is_match pat (get_full_name x) with Some b => b && negb (str_eqb (leaf x) []) | None => false end
  | None => false
  end.
Lemma hit_same t t' pat c : same t t' -> hit t pat c = hit t' pat c.
Proof.
  intros S. unfold hit. destruct (nth_error (comps t) c) as [x|] eqn:E.
  - destruct (same_nth _ _ _ _ S E) as (x' & -> & E'). injection E' as E1 E2 E3 E4. unfold get_full_name. now rewrite E1, E2.
  - apply nth_error_None in E. rewrite (same_length _ _ S) in E. apply nth_error_None in E. now rewrite E.
Qed.
Lemma post_exists t : wf t -> forall c, c < length (comps t) -> exists po, postorder t c po /\ (forall d, In d po -> c <= d < length (comps t)).
Proof.
  intros W. assert (K : forall m c, length (comps t) - c <= m -> c < length (comps t) -> exists po, postorder t c po /\ (forall d, In d po -> c <= d < length (comps t))).
  2: { intros c. apply (K (length (comps t) - c) c). lia. }
  induction m as [|m IH]; intros c HM HC; [lia|].
  destruct (nth_error (comps t) c) as [x|] eqn:E; [|apply nth_error_None in E; lia].
  assert (F : exists ls, Forall2 (postorder t) (map snd (kids x)) ls /\ forall d, In d (concat ls) -> c < d < length (comps t)).
  { assert (KB : forall e, In e (map snd (kids x)) -> c < e < length (comps t)).
    { intros e HE. apply in_map_iff in HE. destruct HE as ([n e'] & <- & HE). destruct (w_down t W c x n e' E HE) as (L & y & Y & _).
      cbn. split; [exact L|]. apply nth_error_Some. congruence. }
    clear E. induction (map snd (kids x)) as [|e l IHl]; [exists []; split; [constructor|intros d []]|].
    destruct IHl as (ls & F & B); [intros; apply KB; now right|]. destruct (KB e (or_introl eq_refl)) as [K1 K2].
    destruct (IH e) as (po & P & Q); [lia|lia|]. exists (po :: ls). split; [now constructor|]. cbn [concat]. intros d HD. apply in_app_iff in HD.
    destruct HD as [HD|HD]; [apply Q in HD; lia|auto]. }
  destruct F as (ls & F & B). exists (concat ls ++ [c]). split; [econstructor; eassumption|].
  intros d HD. apply in_app_iff in HD. destruct HD as [HD|[<-|[]]]; [apply B in HD; lia|lia].
Qed.
Lemma post_bounds t : wf t -> forall c po, postorder t c po -> (forall d, In d po -> c <= d < length (comps t)) /\ exists l, po = l ++ [c] /\ forall d, In d l -> c < d.
Proof.
  intros W. assert (K : forall m c po, length (comps t) - c <= m -> postorder t c po ->
    (forall d, In d po -> c <= d < length (comps t)) /\ exists l, po = l ++ [c] /\ forall d, In d l -> c < d).
  2: { intros c po. apply (K (length (comps t) - c) c). lia. }
  induction m as [|m IH]; intros c po HM HP; inversion HP as [c' x ls E F]; subst.
  - assert (c < length (comps t)) by (apply nth_error_Some; congruence). lia.
  - assert (CL : c < length (comps t)) by (apply nth_error_Some; congruence).
    assert (B : forall d, In d (concat ls) -> c < d < length (comps t)).
    { assert (KB : forall e, In e (map snd (kids x)) -> c < e < length (comps t)).
      { intros e HE. apply in_map_iff in HE. destruct HE as ([n e'] & <- & HE). destruct (w_down t W c x n e' E HE) as (L & y & Y & _).
        cbn. split; [exact L|]. apply nth_error_Some. congruence. }
      clear E HP. induction F as [|e po l ls P F IHF]; [intros d []|]. intros d HD. cbn [concat] in HD. apply in_app_iff in HD. destruct HD as [HD|HD].
      - destruct (KB e (or_introl eq_refl)). destruct (IH e po ltac:(lia) P) as [Q _]. apply Q in HD. lia.
      - apply IHF; auto. intros; apply KB; now right. }
    split; [|exists (concat ls); split; [reflexivity|intros d HD; apply B in HD; lia]].
    intros d HD. apply in_app_iff in HD. destruct HD as [HD|[<-|[]]]; [apply B in HD; lia|lia].
Qed.
Definition frame (po : list nat) (t t' : tree) : Prop := same t' t /\ forall d, ~ In d po -> nth_error (comps t') d = nth_error (comps t) d.
Lemma frame_trans p1 p2 t1 t2 t3 : frame p1 t1 t2 -> frame p2 t2 t3 -> frame (p1 ++ p2) t1 t3.
Proof.
  intros [S1 F1] [S2 F2]. split; [eapply same_trans; eassumption|]. intros d N. rewrite F2, F1; auto; intros X; apply N, in_or_app; auto.
Qed.
Lemma setptr_nth t c z d x : nth_error (comps t) c = Some x ->
  nth_error (comps (setptr t c z)) d = if Nat.eqb c d then Some (Comp (leaf x) (full x) (parent x) (kids x) z) else nth_error (comps t) d.
Proof.
  intros E. unfold setptr. rewrite E. cbn [comps]. rewrite set_at_nth. destruct (Nat.eqb_spec c d) as [<-|]; [now rewrite E|reflexivity].
Qed.
Lemma setptr_frame t c z : frame [c] t (setptr t c z).
Proof.
  split; [apply setptr_same|]. intros d N. destruct (nth_error (comps t) c) as [x|] eqn:E.
  - rewrite (setptr_nth _ _ _ _ _ E). destruct (Nat.eqb_spec c d) as [->|]; [|reflexivity]. destruct N. now left.
  - unfold setptr. now rewrite E.
Qed.
Definition matches_all (pat : str) : Prop := forall s, exists b, uvm_is_match pat s = Some b.
Definition visit_ok (t0 : tree) (pat : str) (c : nat) (po : list nat) : Prop :=
  forall t fuel, same t t0 -> 2 * length po <= fuel ->
    exists t', recurse fuel pat t (Visit c) = FDone t' (filter (hit t0 pat) po) /\ frame po t t'.
Lemma walk t0 pat : matches_all pat -> wf t0 -> forall c po, postorder t0 c po -> visit_ok t0 pat c po.
Proof.
  intros MA W.
  assert (K : forall m c po, length (comps t0) - c <= m -> postorder t0 c po -> visit_ok t0 pat c po).
  2: { intros c po. apply (K (length (comps t0) - c) c). lia. }
  induction m as [|m IH]; intros c po HM HP; inversion HP as [c' x ls E F]; subst.
  { assert (c < length (comps t0)) by (apply nth_error_Some; congruence). lia. }
  intros t fuel SM HF. rewrite app_length in HF. cbn [length] in HF.
  destruct fuel as [|fuel]; [lia|].
  assert (CL : c < length (comps t0)) by (apply nth_error_Some; congruence).
  assert (KB : forall e, In e (map snd (kids x)) -> c < e).
  { intros e HE. apply in_map_iff in HE. destruct HE as ([n e'] & <- & HE). apply (w_down t0 W c x n e' E HE). }
  (* the loop *)
  assert (LOOP : forall l ls' pre t f, map snd (kids x) = pre ++ l -> Forall2 (postorder t0) l ls' -> l <> [] -> same t t0 ->
     (exists y, nth_error (comps t) c = Some y /\ ptr y = Z.of_nat (length pre)) -> 2 * length (concat ls') + 1 <= f ->
     exists t', recurse f pat t (Loop c (hd_error l)) = FDone t' (filter (hit t0 pat) (concat ls')) /\ frame (concat ls' ++ [c]) t t').
  { clear t fuel SM HF. induction l as [|e l IHl]; intros ls' pre t f HK HF2 NE SM HY HL; [congruence|].
    inversion HF2 as [|? po ? ls2 P F2]; subst. cbn [concat hd_error] in *. rewrite app_length in HL.
    assert (EK : c < e) by (apply KB; rewrite HK; apply in_or_app; right; now left).
    assert (PL : 1 <= length po) by (inversion P; rewrite app_length; cbn [length]; lia).
    destruct f as [|f]; [lia|]. cbn [recurse].
    destruct (IH e po ltac:(lia) P t f SM ltac:(lia)) as (t1 & R1 & FR1). rewrite R1.
    assert (CP : ~ In c po). { intros X. apply (proj1 (post_bounds t0 W e po P)) in X. lia. }
    destruct HY as (y & Y1 & Y2). assert (Y1' : nth_error (comps t1) c = Some y) by (rewrite (proj2 FR1) by exact CP; exact Y1).
    assert (S1 : same t1 t0) by (eapply same_trans; [apply FR1|exact SM]).
    destruct (same_nth _ _ _ _ S1 Y1') as (x' & X1 & X2). assert (x' = x) as -> by congruence. injection X2 as _ _ _ X2.
    assert (LK : length (kids x) = length pre + S (length l)) by (rewrite <- (map_length snd), HK, app_length; cbn [length]; lia).
    unfold has_next_child. rewrite Y1', Y2. rewrite <- X2, LK.
    destruct l as [|e2 l].
    - cbn [length]. destruct (Z.ltb_spec (Z.of_nat (length pre) + 1) (Z.of_nat (length pre + 1))); [lia|].
      inversion F2; subst. cbn [concat] in *. rewrite app_nil_r. exists t1. split; [reflexivity|]. split; [apply FR1|].
      intros d N. apply (proj2 FR1). intros X. apply N, in_or_app. now left.
    - cbn [length]. destruct (Z.ltb_spec (Z.of_nat (length pre) + 1) (Z.of_nat (length pre + S (S (length l))))); [|lia].
      unfold next_child. rewrite Y1', Y2, <- X2, LK.
      destruct (Z.ltb_spec (Z.of_nat (length pre) + 1) (Z.of_nat (length pre + S (length (e2 :: l))))); [|cbn [length] in *; lia].
      destruct (Z.ltb_spec (Z.of_nat (length pre) + 1) 0); [lia|].
      assert (ND : option_map snd (nth_error (kids x) (Z.to_nat (Z.of_nat (length pre) + 1))) = Some e2).
      { rewrite <- nth_error_map, HK. replace (Z.to_nat (Z.of_nat (length pre) + 1)) with (length pre + 1) by lia.
        rewrite nth_error_app2 by lia. replace (length pre + 1 - length pre) with 1 by lia. reflexivity. }
      rewrite ND. change (Some e2) with (hd_error (e2 :: l)).
      destruct (IHl ls2 (pre ++ [e]) (setptr t1 c (Z.of_nat (length pre) + 1)) f) as (t3 & R3 & FR3).
      + rewrite HK, <- app_assoc. reflexivity.
      + exact F2.
      + discriminate.
      + eapply same_trans; [apply setptr_same|exact S1].
      + exists (Comp (leaf y) (full y) (parent y) (kids y) (Z.of_nat (length pre) + 1)). split.
        * rewrite (setptr_nth _ _ _ _ _ Y1'), Nat.eqb_refl. reflexivity.
        * cbn [ptr]. rewrite app_length. cbn [length]. lia.
      + lia.
      + rewrite R3. exists t3. rewrite filter_app. split; [reflexivity|].
        pose proof (frame_trans _ _ _ _ _ FR1 (frame_trans _ _ _ _ _ (setptr_frame t1 c (Z.of_nat (length pre) + 1)) FR3)) as [G1 G2].
        split; [exact G1|]. intros d N. apply G2. intros X. apply N. rewrite !in_app_iff in *. cbn [In] in *. tauto. }
  cbn [recurse]. destruct (same_nth _ _ _ _ (same_sym _ _ SM) E) as (y & Y1 & Y2). rewrite Y1. injection Y2 as Y2 Y3 Y4 Y5. rewrite Y5.
  assert (HITC : forall t1, exists b, uvm_is_match pat (get_full_name y) = Some b /\
     filter (hit t0 pat) (concat ls ++ [c]) = filter (hit t0 pat) (concat ls) ++ (if b && negb (str_eqb (leaf y) []) then [c] else []) /\ t1 = t1 :> tree).
  { intros t1. destruct (MA (get_full_name y)) as [b B]. exists b. split; [exact B|]. split; [|reflexivity]. rewrite filter_app. f_equal. cbn [filter].
    assert (hit t0 pat c = b && negb (str_eqb (leaf y) [])) as ->; [|reflexivity].
    unfold hit. rewrite E. unfold get_full_name in *. now rewrite <- Y2, <- Y3, B. }
  destruct (kids x) as [|k ks] eqn:EK.
  - cbn [map] in F. inversion F; subst. cbn [concat app] in *. destruct (HITC t) as (b & -> & -> & _). exists t. split; [reflexivity|].
    split; [apply same_refl|reflexivity].
  - unfold first_child. rewrite Y1, Y5. replace (option_map snd (hd_error (k :: ks))) with (hd_error (map snd (k :: ks))) by reflexivity.
    destruct (LOOP (map snd (k :: ks)) ls [] (setptr t c 0) fuel) as (t2 & R2 & FR2).
    + reflexivity.
    + exact F.
    + discriminate.
    + eapply same_trans; [apply setptr_same|exact SM].
    + eexists. rewrite (setptr_nth _ _ _ _ _ Y1), Nat.eqb_refl. split; reflexivity.
    + lia.
    + rewrite R2. destruct (HITC t2) as (b & -> & -> & _). exists t2. split; [reflexivity|].
      destruct (frame_trans _ _ _ _ _ (setptr_frame t c 0) FR2) as [G1 G2]. split; [exact G1|]. intros d N. apply G2.
      intros X. apply N. rewrite !in_app_iff in *. cbn [In] in *. tauto.
Qed.
End Steps.

(** ** Paths *)
Lemma path_app t c ns d : path t c ns d -> forall ms e, path t d ms e -> path t c (ns ++ ms) e.
Proof. induction 1; intros ms f H'; cbn [app]; [exact H'|]. econstructor; eauto. Qed.
Lemma path_one t c n d : child t c n d -> path t c [n] d.
Proof. intros H. econstructor; [exact H|constructor]. Qed.
Lemma path_last t c ns d : path t c ns d -> ns = [] /\ c = d \/ exists ms n p, ns = ms ++ [n] /\ path t c ms p /\ child t p n d.
Proof.
  induction 1 as [c|c n e ns d H1 H2 IH]; [left; auto|right]. destruct IH as [[-> ->]|(ms & m & p & -> & P & Q)].
  - exists [], n, c. split; [reflexivity|]. split; [constructor|exact H1].
  - exists (n :: ms), m, p. split; [reflexivity|]. split; [econstructor; eauto|exact Q].
Qed.
Lemma child_lt t c n d : wf t -> child t c n d -> c < d < length (comps t).
Proof.
  intros W (x & H & HI). destruct (w_down t W c x n d H HI) as (L & y & Y & _). split; [exact L|]. apply nth_error_Some. congruence.
Qed.
Lemma child_up t p n p' n' d : wf t -> child t p n d -> child t p' n' d -> p = p' /\ n = n'.
Proof.
  intros W (x & H & HI) (x' & H' & HI'). destruct (w_down t W p x n d H HI) as (_ & y & Y1 & Y2 & Y3).
  destruct (w_down t W p' x' n' d H' HI') as (_ & z & Z1 & Z2 & Z3). assert (y = z) as -> by congruence. split; congruence.
Qed.
Lemma child_det t p n d d' : wf t -> child t p n d -> child t p n d' -> d = d'.
Proof.
  intros W (x & H & HI) (x' & H' & HI'). assert (x' = x) as -> by congruence. pose proof (w_names t W p x H) as ND.
  apply (get_kid_complete _ _ _ ND) in HI. apply (get_kid_complete _ _ _ ND) in HI'. congruence.
Qed.
Lemma path_le t c ns d : wf t -> path t c ns d -> c <= d /\ (ns <> [] -> c < d).
Proof.
  intros W. induction 1 as [c|c n e ns d H1 H2 IH]; [split; [lia|congruence]|]. apply child_lt in H1; [|exact W]. lia.
Qed.
Lemma path_det t c ns d : wf t -> path t c ns d -> forall d', path t c ns d' -> d = d'.
Proof.
  intros W. induction 1 as [c|c n e ns d H1 H2 IH]; intros d' H'; inversion H'; subst; [reflexivity|].
  apply IH. now rewrite (child_det t c n e e0 W).
Qed.
Lemma path_names t c ns d : wf t -> path t c ns d -> forall ns', path t c ns' d -> ns = ns'.
Proof.
  intros W H. revert H. revert d. induction ns as [|n ns IH] using rev_ind; intros d H ns' H'.
  - inversion H; subst. destruct ns' as [|m ns']; [reflexivity|]. apply path_le in H'; [|exact W]. destruct H' as [_ H']. specialize (H' ltac:(discriminate)). lia.
  - apply path_last in H. destruct H as [[X _]|(ms & m & p & E & P & Q)]; [now destruct ns|]. apply app_inj_tail in E. destruct E as [<- <-].
    pose proof H' as H2. apply path_last in H2. destruct H2 as [[-> ->]|(ms' & m' & p' & -> & P' & Q')].
    + apply path_le in P; [|exact W]. apply child_lt in Q; [|exact W]. lia.
    + destruct (child_up t p n p' m' d W Q Q') as [<- <-]. f_equal. eauto.
Qed.
Lemma path_exists t c : wf t -> c < length (comps t) -> exists ns, path t 0 ns c.
Proof.
  intros W. induction c as [c IH] using (well_founded_induction lt_wf). intros L. destruct (Nat.eq_dec c 0) as [->|N]; [exists []; constructor|].
  destruct (nth_error (comps t) c) as [x|] eqn:E; [|apply nth_error_None in E; lia].
  destruct (w_up t W c x E N) as (_ & p & px & _ & P & HI & _). assert (CH : child t p (leaf x) c) by (exists px; auto).
  destruct (child_lt t p _ c W CH) as [L1 _]. destruct (IH p L1) as [ns H]; [lia|]. exists (ns ++ [leaf x]). eapply path_app; [exact H|now apply path_one].
Qed.
Lemma path_in t c ns d : wf t -> path t c ns d -> c < length (comps t) -> d < length (comps t).
Proof.
  intros W. induction 1 as [c|c n e ns d H1 H2 IH]; [auto|]. intros _. apply IH. eapply child_lt; eauto.
Qed.
Lemma below_cmp t a b d : wf t -> below t a d -> below t b d -> below t a b \/ below t b a.
Proof.
  intros W. induction d as [d IH] using (well_founded_induction lt_wf). intros [ns H1] [ms H2].
  pose proof H1 as P1. pose proof H2 as P2. apply path_last in P1. apply path_last in P2.
  destruct P1 as [[_ ->]|(ns' & n & p & _ & P1 & C1)]; [right; eexists; exact H2|].
  destruct P2 as [[_ ->]|(ms' & m & q & _ & P2 & C2)]; [left; eexists; exact H1|].
  destruct (child_up t p n q m d W C1 C2) as [<- _]. apply (IH p); [eapply child_lt; eauto|eexists; eauto|eexists; eauto].
Qed.
Lemma siblings t p n a m b d : wf t -> child t p n a -> child t p m b -> below t a d -> below t b d -> a = b.
Proof.
  intros W C1 C2 B1 B2.
  assert (K : forall n a m b, child t p n a -> child t p m b -> below t a b -> a = b).
  { clear n a m b C1 C2 B1 B2. intros n a m b C1 C2 [ns H]. apply path_last in H. destruct H as [[_ E]|(ms & k & q & _ & P & C)]; [exact E|].
    destruct (child_up t q k p m b W C C2) as [-> _]. apply path_le in P; [|exact W]. apply child_lt in C1; [|exact W]. lia. }
  destruct (below_cmp t a b d W B1 B2); [eauto|symmetry; eauto].
Qed.
Lemma post_in t : wf t -> forall c po, postorder t c po -> forall d, In d po <-> below t c d.
Proof.
  intros W.
  assert (K : forall m c po, length (comps t) - c <= m -> postorder t c po -> forall d, In d po <-> below t c d).
  2: { intros c po. apply (K (length (comps t) - c) c). lia. }
  induction m as [|m IH]; intros c po HM HP; inversion HP as [c' x ls E F]; subst.
  { assert (c < length (comps t)) by (apply nth_error_Some; congruence). lia. }
  assert (CL : c < length (comps t)) by (apply nth_error_Some; congruence). intros d.
  assert (CH : forall e, In e (map snd (kids x)) <-> exists n, child t c n e).
  { intros e. split.
    - intros HE. apply in_map_iff in HE. destruct HE as ([n e'] & <- & HE). exists n, x. auto.
    - intros (n & x' & X & HI). assert (x' = x) as -> by congruence. now apply (in_map snd) in HI. }
  assert (KEY : In d (concat ls) <-> exists n e, child t c n e /\ below t e d).
  { assert (A : In d (concat ls) <-> exists e, In e (map snd (kids x)) /\ below t e d).
    { assert (KB : forall e, In e (map snd (kids x)) -> c < e) by (intros e HE; apply CH in HE; destruct HE as [n HE]; eapply child_lt; eauto).
      clear CH HP E. induction F as [|e po l ls P F IHF]; cbn [concat In]; [split; [tauto|intros (e & [] & _)]|].
      rewrite in_app_iff, IHF by (intros; apply KB; now right). specialize (KB e (or_introl eq_refl)). rewrite (IH e po ltac:(lia) P d).
      split; [intros [B|(e' & I1 & I2)]; eauto|]. intros (e' & [<-|I1] & I2); eauto. }
    rewrite A. split; [intros (e & I1 & I2); apply CH in I1; destruct I1 as [n I1]; eauto|]. intros (n & e & I1 & I2). exists e. split; [apply CH; eauto|exact I2]. }
  rewrite in_app_iff, KEY. cbn [In]. split.
  - intros [(n & e & C & [ns P])|[<-|[]]]; [exists (n :: ns); econstructor; eauto|exists []; constructor].
  - intros [ns P]. inversion P; subst; [right; auto|left; do 2 eexists; split; [eassumption|eexists; eassumption]].
Qed.
Lemma post_nodup t : wf t -> forall c po, postorder t c po -> NoDup po.
Proof.
  intros W.
  assert (K : forall m c po, length (comps t) - c <= m -> postorder t c po -> NoDup po).
  2: { intros c po. apply (K (length (comps t) - c) c). lia. }
  induction m as [|m IH]; intros c po HM HP; inversion HP as [c' x ls E F]; subst.
  { assert (c < length (comps t)) by (apply nth_error_Some; congruence). lia. }
  assert (CL : c < length (comps t)) by (apply nth_error_Some; congruence).
  assert (NC : ~ In c (concat ls)).
  { destruct (post_bounds t W c _ HP) as (_ & l & EL & B). apply app_inj_tail in EL. destruct EL as [-> _]. intros X. apply B in X. lia. }
  assert (CH : forall e, In e (map snd (kids x)) -> exists n, child t c n e).
  { intros e HE. apply in_map_iff in HE. destruct HE as ([n e'] & <- & HE). exists n, x. auto. }
  assert (ND : NoDup (map snd (kids x))).
  { pose proof (w_sorted t W c x E) as SS. clear - SS. induction SS as [|a l SS IHs FA]; constructor; auto. intros HI. rewrite Forall_forall in FA. apply FA in HI. lia. }
  assert (G : NoDup (concat ls)).
  { clear HP E NC. revert CH ND. induction F as [|e po l ls P F IHF]; intros CH ND; cbn [concat]; [constructor|].
    inversion ND as [|? ? N1 N2]; subst. destruct (CH e (or_introl eq_refl)) as [n C]. pose proof (child_lt t c n e W C) as L.
    assert (CH' : forall e0, In e0 l -> exists n0, child t c n0 e0) by (intros; apply CH; now right).
    assert (NP : NoDup po) by (apply (IH e po); [lia|exact P]). specialize (IHF CH' N2).
    assert (DJ : forall d, In d po -> ~ In d (concat ls)).
    { intros d D1 D2. apply (post_in t W e po P) in D1. clear IHF IH HM. clear CH ND N2. induction F as [|e2 po2 l ls P2 F IHF2]; [destruct D2|].
      cbn [concat] in D2. apply in_app_iff in D2. destruct D2 as [D2|D2].
      - apply (post_in t W e2 po2 P2) in D2. destruct (CH' e2 (or_introl eq_refl)) as [n2 C2]. apply N1. left. symmetry. eapply siblings; eauto.
      - apply IHF2; auto; [intros X; apply N1; now right|intros; apply CH'; now right]. }
    clear - NP IHF DJ. induction po as [|y po IHp]; cbn [app]; [exact IHF|]. inversion NP; subst. constructor.
    - rewrite in_app_iff. intros [X|X]; [contradiction|]. apply (DJ y (or_introl eq_refl) X).
    - apply IHp; auto. intros d D. apply DJ. now right. }
  clear - G NC. induction (concat ls) as [|y l IHl]; cbn [app]; [constructor; [intros []|constructor]|]. inversion G; subst. constructor.
  - rewrite in_app_iff. intros [X|[<-|[]]]; [contradiction|]. apply NC. now left.
  - apply IHl; auto. intros X. apply NC. now right.
Qed.
Lemma post_length t c po : wf t -> postorder t c po -> length po <= length (comps t).
Proof.
  intros W P. rewrite <- (seq_length (length (comps t)) 0). apply NoDup_incl_length; [now apply (post_nodup t W c)|].
  intros d D. apply in_seq. apply (proj1 (post_bounds t W c po P)) in D. lia.
Qed.

(** ** Names *)
Lemma join_snoc ns n : ns <> [] -> join (ns ++ [n]) = join ns ++ dot :: n.
Proof.
  induction ns as [|m ns IH]; [congruence|]. intros _. destruct ns as [|k ns]; [reflexivity|].
  change (join ((m :: k :: ns) ++ [n])) with (m ++ dot :: join ((k :: ns) ++ [n])). rewrite IH by discriminate. cbn [join].
  now rewrite <- app_assoc.
Qed.
Lemma full_path t : wf t -> forall ns c, path t 0 ns c -> ns <> [] -> exists x, nth_error (comps t) c = Some x /\ get_full_name x = join ns.
Proof.
  intros W ns. induction ns as [|n ns IH] using rev_ind; intros c H N; [congruence|].
  apply path_last in H. destruct H as [[X _]|(ms & m & p & E & P & C)]; [now destruct ns|]. apply app_inj_tail in E. destruct E as [<- <-].
  destruct C as (px & P1 & P2). destruct (w_down t W p px n c P1 P2) as (L & x & X1 & X2 & X3). exists x. split; [exact X1|].
  destruct (w_up t W c x X1 ltac:(lia)) as (LN & q & qx & Q1 & Q2 & Q3 & Q4). assert (q = p) as -> by congruence. assert (qx = px) as -> by congruence.
  pose proof (wf_full t c x W X1 ltac:(lia)) as NF. unfold get_full_name. destruct (full x) eqn:EF; [congruence|]. rewrite Q4, X2.
  destruct (Nat.eqb_spec p 0) as [->|NP]; unfold full_under.
  - apply path_le in P as PL; [|exact W]. destruct ns; [reflexivity|]. destruct PL as [_ PL]. specialize (PL ltac:(discriminate)). lia.
  - assert (NN : ns <> []) by (intros ->; inversion P; congruence). destruct (IH p P NN) as (y & Y1 & Y2). assert (y = px) as -> by congruence.
    rewrite Y2. now rewrite join_snoc.
Qed.
Lemma app_dot_inj a : forall b r s, dotfree a -> dotfree b -> a ++ dot :: r = b ++ dot :: s -> a = b /\ r = s.
Proof.
  induction a as [|x a IH]; intros [|y b] r s HA HB E; cbn in E.
  - injection E as ->. auto.
  - injection E as <- _. destruct HB. now left.
  - injection E as -> _. destruct HA. now left.
  - injection E as <- E. destruct (IH b r s) as [-> ->]; auto; intros X; [apply HA|apply HB]; now right.
Qed.
Lemma join_inj ns : forall ms, ns <> [] -> ms <> [] -> Forall dotfree ns -> Forall dotfree ms -> join ns = join ms -> ns = ms.
Proof.
  induction ns as [|n ns IH]; intros [|m ms] H1 H2 F1 F2 E; try congruence. inversion F1; subst. inversion F2; subst.
  destruct ns as [|n2 ns], ms as [|m2 ms].
  - cbn in E. now subst.
  - cbn [join] in E. subst n. destruct H3. apply in_or_app. right. now left.
  - cbn [join] in E. subst m. destruct H5. apply in_or_app. right. now left.
  - change (n ++ dot :: join (n2 :: ns) = m ++ dot :: join (m2 :: ms)) in E. apply app_dot_inj in E; auto. destruct E as [-> E]. f_equal. apply IH; auto; discriminate.
Qed.
(** dots *)
Definition dots (s : str) : nat := length (filter (fun x => Ascii.eqb x dot) s).
Lemma dots_app a b : dots (a ++ b) = dots a + dots b.
Proof. unfold dots. now rewrite filter_app, app_length. Qed.
Lemma dots_free s : dotfree s -> dots s = 0.
Proof.
  unfold dots. induction s as [|x s IH]; intros H; [reflexivity|]. cbn [filter]. destruct (Ascii.eqb_spec x dot) as [->|N]; [destruct H; now left|].
  apply IH. intros X. apply H. now right.
Qed.
Lemma dots_join ns : Forall dotfree ns -> ns <> [] -> S (dots (join ns)) = length ns.
Proof.
  induction ns as [|n ns IH]; [congruence|]. intros F _. inversion F; subst. destruct ns as [|m ns]; [cbn [join length]; now rewrite dots_free|].
  change (join (n :: m :: ns)) with (n ++ dot :: join (m :: ns)). rewrite dots_app, (dots_free n) by auto.
  change (dots (dot :: join (m :: ns))) with (S (dots (join (m :: ns)))). cbn [plus]. rewrite IH by (auto; discriminate). reflexivity.
Qed.
Lemma depth_dots s : forall n, fold_left (fun n x => if Ascii.eqb x dot then S n else n) s n = n + dots s.
Proof.
  unfold dots. induction s as [|x s IH]; intros n; cbn [fold_left filter]; [cbn; lia|]. rewrite IH. destruct (Ascii.eqb x dot); cbn [length]; lia.
Qed.

(** ** lookup() *)
Lemma first_dot_free s : dotfree s -> s <> [] -> forall i, first_dot s i = i + length s - 1.
Proof.
  induction s as [|x s IH]; [congruence|]. intros H _ i. destruct s as [|y s]; [cbn; lia|].
  change (first_dot (x :: y :: s) i) with (if Ascii.eqb x dot then i else first_dot (y :: s) (S i)).
  destruct (Ascii.eqb_spec x dot) as [->|N]; [destruct H; now left|]. rewrite IH; [cbn [length]; lia| |discriminate]. intros X. apply H. now right.
Qed.
Lemma first_dot_app n : forall r i, dotfree n -> r <> [] -> first_dot (n ++ dot :: r) i = i + length n.
Proof.
  induction n as [|x n IH]; intros r i H NR; cbn [app].
  - destruct r; [congruence|]. cbn. lia.
  - assert (first_dot (x :: n ++ dot :: r) i = if Ascii.eqb x dot then i else first_dot (n ++ dot :: r) (S i)) as -> by (destruct n; reflexivity).
    destruct (Ascii.eqb_spec x dot) as [->|N]; [destruct H; now left|]. rewrite IH; [cbn [length]; lia| |exact NR]. intros X. apply H. now right.
Qed.
Lemma extract_free n : good_name n -> extract_name n = (n, []).
Proof.
  intros [NE DF]. unfold extract_name. rewrite first_dot_free by auto. destruct n as [|x n]; [congruence|]. cbn [length].
  replace (0 + S (length n) - 1) with (length n) by lia. destruct (Z.eqb_spec (Z.of_nat (length n)) (Z.of_nat (S (length n)) - 1)); [reflexivity|lia].
Qed.
Lemma extract_app n r : dotfree n -> r <> [] -> extract_name (n ++ dot :: r) = (n, r).
Proof.
  intros DF NR. unfold extract_name. rewrite first_dot_app by auto. cbn [plus]. rewrite app_length. cbn [length].
  destruct r as [|x r]; [congruence|]. cbn [length].
  destruct (Z.eqb_spec (Z.of_nat (length n)) (Z.of_nat (length n + S (S (length r))) - 1)); [lia|].
  rewrite firstn_app, firstn_all, Nat.sub_diag. cbn [firstn]. rewrite app_nil_r.
  rewrite skipn_app, skipn_all2 by lia. replace (S (length n) - length n) with 1 by lia. reflexivity.
Qed.
Lemma join_nonempty ns : ns <> [] -> Forall good_name ns -> join ns <> [].
Proof.
  intros N F. destruct ns as [|n ns]; [congruence|]. inversion F as [|? ? [NE _] _]; subst. destruct ns as [|m ns]; [exact NE|].
  change (n ++ dot :: join (m :: ns) <> []). destruct n; [congruence|discriminate].
Qed.
(** the first name of a joined path *)
Lemma extract_join n ns : Forall good_name (n :: ns) -> extract_name (join (n :: ns)) = (n, join ns).
Proof.
  intros F. inversion F as [|? ? G F']; subst. destruct ns as [|m ns]; [now apply extract_free|].
  change (extract_name (n ++ dot :: join (m :: ns)) = (n, join (m :: ns))). apply extract_app; [apply G|]. apply join_nonempty; [discriminate|exact F'].
Qed.
Definition follow (t : tree) (c : nat) (ns : list str) (r : option nat * list out) : Prop :=
  (exists d, path t c ns d /\ r = (Some d, [])) \/ ((forall d, ~ path t c ns d) /\ r = (None, [OWarn])).
Lemma child_get t c x n : wf t -> nth_error (comps t) c = Some x ->
  match get_kid (kids x) n with Some d => child t c n d | None => forall d, ~ child t c n d end.
Proof.
  intros W H. destruct (get_kid (kids x) n) as [d|] eqn:E.
  - apply get_kid_in in E. exists x. auto.
  - intros d (y & Y & HI). assert (y = x) as -> by congruence. apply get_kid_none in E. apply E. now apply (in_map fst) in HI.
Qed.
Lemma lookup_follow t : wf t -> forall ns c fuel, c < length (comps t) -> Forall good_name ns -> ns <> [] -> length ns <= fuel ->
  exists r, lookup fuel t c (join ns) = Some r /\ follow t c ns r.
Proof.
  intros W. induction ns as [|n ns IH]; intros c fuel HC F N HF; [congruence|]. destruct fuel as [|fuel]; [cbn [length] in HF; lia|].
  cbn [lookup]. rewrite extract_join by exact F. inversion F as [|? ? [NE DF] F']; subst. destruct n as [|y n]; [congruence|].
  destruct (nth_error (comps t) c) as [x|] eqn:E; [|apply nth_error_None in E; lia]. pose proof (child_get t c x (y :: n) W E) as CG.
  destruct (get_kid (kids x) (y :: n)) as [d|].
  - destruct ns as [|m ns].
    + eexists. split; [reflexivity|]. left. exists d. split; [now apply path_one|reflexivity].
    + assert (JN : join (m :: ns) <> []) by (now apply join_nonempty).
      assert (forall A (a b : A), match join (m :: ns) with [] => a | _ => b end = b) as -> by (intros; destruct (join (m :: ns)); [congruence|reflexivity]).
      destruct (IH d fuel) as (r & R & FO); [eapply child_lt; eauto|exact F'|discriminate|cbn [length] in *; lia|].
      exists r. split; [exact R|]. destruct FO as [(e & P & ->)|(NP & ->)]; [left; exists e; split; [econstructor; eauto|reflexivity]|].
      right. split; [|reflexivity]. intros e P. inversion P as [|? ? d' ? ? C P']; subst. apply (NP e). now rewrite (child_det t c (y :: n) d d' W).
  - eexists. split; [reflexivity|]. right. split; [|reflexivity]. intros e P. inversion P; subst. eapply CG; eauto.
Qed.
Lemma lookup_absolute t ns c fuel : wf t -> c < length (comps t) -> Forall good_name ns -> ns <> [] -> length ns <= fuel ->
  exists r, lookup fuel t c (dot :: join ns) = Some r /\ follow t 0 ns r.
Proof.
  intros W HC F N HF. destruct (w_top t W) as (x0 & X0 & _).
  assert (L0 : 0 < length (comps t)) by lia. destruct (lookup_follow t W ns 0 fuel L0 F N HF) as (r & R & FO). exists r. split; [|exact FO].
  rewrite <- R. destruct fuel as [|fuel]; [destruct ns; [congruence|cbn [length] in HF; lia]|]. cbn [lookup].
  change (dot :: join ns) with ([] ++ dot :: join ns). rewrite extract_app by (try apply join_nonempty; auto; intros []).
  destruct ns as [|n ns]; [congruence|]. rewrite extract_join by exact F. inversion F as [|? ? [NE _] _]; subst. destruct n; [congruence|]. reflexivity.
Qed.
Lemma join_length ns : Forall good_name ns -> length ns <= length (join ns).
Proof.
  induction ns as [|n ns IH]; intros F; [cbn; lia|]. inversion F as [|? ? [NE _] F']; subst. destruct ns as [|m ns].
  - cbn [join length]. destruct n; [congruence|]. cbn [length]. lia.
  - change (join (n :: m :: ns)) with (n ++ dot :: join (m :: ns)). rewrite app_length. cbn [length] in *. specialize (IH F'). lia.
Qed.

(** ** All histories *)
Lemma recurse_same fuel pat : forall t j t' l, recurse fuel pat t j = FDone t' l -> same t' t.
Proof.
  induction fuel as [|fuel IH]; intros t j t' l H; cbn [recurse] in H; [discriminate|]. destruct j as [c|c [ch|]]; [| |discriminate].
  - destruct (nth_error (comps t) c) as [x|] eqn:E; [|injection H as <- _; apply same_refl].
    destruct (match kids x with [] => _ | _ => _ end) as [t2 l2| | |] eqn:E2; try discriminate.
    destruct (uvm_is_match pat (get_full_name x)) as [b|]; [|discriminate]. injection H as <- _.
    destruct (kids x); [injection E2 as <- _; apply same_refl|]. apply IH in E2. eapply same_trans; [exact E2|apply setptr_same].
  - destruct (recurse fuel pat t (Visit ch)) as [t1 l1| | |] eqn:E1; try discriminate. apply IH in E1.
    destruct (has_next_child t1 c); [|injection H as <- _; exact E1]. unfold next_child in H.
    destruct (nth_error (comps t1) c) as [x|] eqn:E.
    + destruct (recurse fuel pat _ _) as [t3 l3| | |] eqn:E3; try discriminate. injection H as <- _. apply IH in E3.
      eapply same_trans; [exact E3|]. eapply same_trans; [apply setptr_same|exact E1].
    + destruct (recurse fuel pat t1 (Loop c None)) as [t3 l3| | |] eqn:E3; try discriminate. injection H as <- _. apply IH in E3.
      eapply same_trans; [exact E3|exact E1].
Qed.
(** what a call may do to the tree *)
Inductive change (dec : nat -> str) (t : tree) : lab -> tree -> Prop :=
| ch_same l t' : same t' t -> change dec t l t'
| ch_built : change dec t LBuilt (Tree (comps t) true (insts t))
| ch_inst l t' : comps t' = comps t -> built t' = built t -> change dec t l t'
| ch_new name p k : change dec t (LNew name p k) (fst (new dec t name p k))
| ch_name c name : change dec t (LSetName c name) (fst (set_name t c name)).
Lemma step_change dec t l : change dec t l (fst (step dec t l)).
Proof.
  assert (AB : forall l c f, change dec t l (fst (about t c f))) by (intros; unfold about; destruct (nth_error (comps t) c); apply ch_same, same_refl).
  destruct l; cbn [step]; try apply AB.
  - apply ch_new.
  - apply ch_name.
  - apply ch_built.
  - apply ch_inst; reflexivity.
  - apply ch_same. cbn [fst]. apply setptr_same.
  - apply ch_same. unfold next_child. destruct (nth_error (comps t) c); cbn [fst]; [apply setptr_same|apply same_refl].
  - apply ch_same. destruct (lookup _ _ _ _) as [[r o]|]; apply same_refl.
  - apply ch_same. unfold find_all. destruct (recurse _ _ _ _) as [t1 l1| | |] eqn:E; cbn [fst]; try apply same_refl. now apply recurse_same in E.
  - apply ch_same. unfold find_all. destruct (recurse _ _ _ _) as [t1 [|d l1]| | |] eqn:E; cbn [fst]; try apply same_refl; now apply recurse_same in E.
Qed.
Lemma wf_step dec t l : wf t -> wf (fst (step dec t l)).
Proof.
  intros W. destruct (step_change dec t l).
  - apply (same_wf t); [now apply same_sym|exact W].
  - now apply (comps_wf t).
  - apply (comps_wf t); auto.
  - destruct (new_spec dec t name p k W) as [(px & _ & _ & _ & _ & _ & H & _)|(_ & _ & H & _)]; exact H.
  - destruct (set_name_spec t c name W) as [(-> & _)|(x & _ & _ & _ & _ & _ & H)]; [exact W|exact H].
Qed.
Lemma wf_build dec n ls : wf (fst (build dec n ls)).
Proof.
  unfold build. assert (G : forall t, wf t -> wf (fst (run_machine (step dec) t ls))); [|apply G, wf0].
  induction ls as [|l ls IH]; intros t W; [exact W|]. cbn [run_machine]. pose proof (wf_step dec t l W) as W'.
  destruct (step dec t l) as [t1 o1]. cbn [fst] in *. specialize (IH t1 W'). destruct (run_machine (step dec) t1 ls). exact IH.
Qed.

(** names, parents and children stay *)
Definition kept (t t' : tree) : Prop := length (comps t) <= length (comps t') /\ forall c x, nth_error (comps t) c = Some x ->
  exists x', nth_error (comps t') c = Some x' /\ parent x' = parent x /\ (c <> 0 -> leaf x' = leaf x /\ full x' = full x) /\ incl (kids x) (kids x').
Lemma kept_refl t : kept t t.
Proof. split; [lia|]. intros c x H. exists x. repeat split; auto. apply incl_refl. Qed.
Lemma kept_trans a b c : kept a b -> kept b c -> kept a c.
Proof.
  intros [L1 K1] [L2 K2]. split; [lia|]. intros d x H. destruct (K1 d x H) as (y & Y1 & Y2 & Y3 & Y4). destruct (K2 d y Y1) as (z & Z1 & Z2 & Z3 & Z4).
  exists z. split; [exact Z1|]. split; [congruence|]. split; [|eapply incl_tran; eassumption]. intros N. destruct (Y3 N), (Z3 N). split; congruence.
Qed.
Lemma kept_step dec t l : wf t -> kept t (fst (step dec t l)).
Proof.
  intros W. destruct (step_change dec t l) as [l t' SM| |l t' E EB|name p k|c name].
  - split; [rewrite (same_length _ _ SM); lia|]. intros c x H. destruct (same_nth t t' c x) as (x' & X & E); [now apply same_sym|exact H|].
    injection E as E1 E2 E3 E4. exists x'. rewrite E1, E2, E3, E4. repeat split; auto. apply incl_refl.
  - split; [cbn; lia|]. intros c x H. exists x. repeat split; auto. apply incl_refl.
  - split; [rewrite E; lia|]. intros c x H. exists x. rewrite E. repeat split; auto. apply incl_refl.
  - destruct (new_spec dec t name p k W) as [(px & P & _ & _ & _ & _ & _ & L & N1 & N2 & N3)|(E & _)].
    + split; [lia|]. intros c x H. destruct (Nat.eq_dec c p) as [->|NP].
      * assert (px = x) as -> by congruence. eexists. split; [exact N1|]. cbn. repeat split; auto. apply incl_appl, incl_refl.
      * exists x. rewrite N3; [repeat split; auto; apply incl_refl|exact NP|]. intros ->. assert (length (comps t) < length (comps t)) by (apply nth_error_Some; congruence). lia.
    + split; [rewrite E; lia|]. intros c x H. exists x. rewrite E. repeat split; auto. apply incl_refl.
  - destruct (set_name_spec t c name W) as [(-> & _)|(x & -> & E & _ & _ & -> & _)]; [apply kept_refl|]. cbn [comps].
    split; cbn [comps]; [rewrite set_at_length; lia|]. intros d y H. rewrite set_at_nth. destruct d as [|d].
    + cbn [Nat.eqb]. rewrite E. eexists. split; [reflexivity|]. assert (y = x) as -> by congruence. cbn. split; [reflexivity|]. split; [congruence|apply incl_refl].
    + cbn [Nat.eqb]. exists y. split; [exact H|]. repeat split; auto. apply incl_refl.
Qed.
Lemma kept_run dec ls : forall t, wf t -> kept t (fst (run_machine (step dec) t ls)).
Proof.
  induction ls as [|l ls IH]; intros t W; [apply kept_refl|]. cbn [run_machine]. pose proof (wf_step dec t l W) as W'. pose proof (kept_step dec t l W) as K.
  destruct (step dec t l) as [t1 o1]. cbn [fst] in *. specialize (IH t1 W'). destruct (run_machine (step dec) t1 ls). cbn [fst] in *. eapply kept_trans; eassumption.
Qed.
(** names without dots *)
Definition clean (t : tree) : Prop := forall c x, c <> 0 -> nth_error (comps t) c = Some x -> dotfree (leaf x).
Lemma clean_step dec t l : (forall n, dotfree (dec n)) -> wf t -> no_dots l -> clean t -> clean (fst (step dec t l)).
Proof.
  intros HD W ND C. destruct (step_change dec t l) as [l t' SM| |l t' E EB|name p k|c name].
  - intros c x N H. destruct (same_nth t' t c x SM H) as (x' & X & E). injection E as E1 E2 E3 E4. rewrite <- E1. eauto.
  - exact C.
  - unfold clean. rewrite E. exact C.
  - destruct (new_spec dec t name p k W) as [(px & P & _ & _ & _ & _ & _ & L & N1 & N2 & N3)|(E & _)].
    + intros c x N H. destruct (Nat.eq_dec c p) as [->|NP]; [rewrite N1 in H; injection H as <-; cbn [leaf]; eauto|].
      destruct (Nat.eq_dec c (length (comps t))) as [->|NL]; [|rewrite N3 in H by assumption; eauto]. rewrite N2 in H. injection H as <-. cbn [leaf].
      unfold real_name. cbn [no_dots] in ND. destruct name; [|exact ND]. intros X. apply in_app_iff in X. destruct X as [X|X]; [|now apply HD in X].
      cbn in X. intuition discriminate.
    + unfold clean. rewrite E. exact C.
  - destruct (set_name_spec t c name W) as [(-> & _)|(x & -> & E & _ & _ & -> & _)]; [exact C|]. intros d y N H. cbn [comps] in H. rewrite set_at_nth in H.
    destruct d; [congruence|]. cbn [Nat.eqb] in H. eauto.
Qed.
Lemma clean_run dec ls : forall t, (forall n, dotfree (dec n)) -> wf t -> Forall no_dots ls -> clean t -> clean (fst (run_machine (step dec) t ls)).
Proof.
  induction ls as [|l ls IH]; intros t HD W F C; [exact C|]. inversion F; subst. cbn [run_machine]. pose proof (wf_step dec t l W) as W'.
  pose proof (clean_step dec t l HD W H1 C) as C'. destruct (step dec t l) as [t1 o1]. cbn [fst] in *. specialize (IH t1 HD W' H2 C').
  destruct (run_machine (step dec) t1 ls). exact IH.
Qed.
Lemma clean_build dec n ls : (forall n, dotfree (dec n)) -> Forall no_dots ls -> clean (fst (build dec n ls)).
Proof.
  intros HD F. apply clean_run; auto; [apply wf0|]. intros c x N H. destruct c as [|[|c]]; [congruence|discriminate|discriminate].
Qed.
Lemma clean_path t c ns d : wf t -> clean t -> path t c ns d -> Forall good_name ns.
Proof.
  intros W C. induction 1 as [c|c n e ns d H1 H2 IH]; constructor; [|exact IH]. destruct H1 as (x & X & HI).
  destruct (w_down t W c x n e X HI) as (L & y & Y1 & Y2 & Y3). subst n. split; [eapply w_up; eauto; lia|]. apply (C e y); [lia|exact Y1].
Qed.
Lemma path_nonempty_names t c ns d : wf t -> path t c ns d -> Forall (fun m => m <> []) ns.
Proof.
  intros W. induction 1 as [c|c n e ns d H1 H2 IH]; constructor; [|exact IH]. destruct H1 as (x & X & HI).
  destruct (w_down t W c x n e X HI) as (L & y & Y1 & Y2 & Y3). subst n. eapply w_up; eauto; lia.
Qed.
(** ** lookup() on any string *)
Lemma first_dot_bound s : forall i, s <> [] -> i <= first_dot s i < i + length s.
Proof.
  induction s as [|x s IH]; intros i N; [congruence|]. destruct s as [|y s]; [cbn; lia|].
  change (first_dot (x :: y :: s) i) with (if Ascii.eqb x dot then i else first_dot (y :: s) (S i)). destruct (Ascii.eqb x dot); [cbn; lia|].
  specialize (IH (S i) ltac:(discriminate)). cbn [length] in *. lia.
Qed.
Lemma extract_shorter s : length (snd (extract_name s)) <= length s - 1.
Proof.
  unfold extract_name. destruct (_ =? _)%Z; cbn [snd length]; [lia|]. rewrite skipn_length. lia.
Qed.
Lemma lookup_any t : wf t -> forall fuel c name, length name < fuel -> c < length (comps t) ->
  (exists d ns, lookup fuel t c name = Some (Some d, []) /\ ns <> [] /\ (path t c ns d \/ path t 0 ns d)) \/ lookup fuel t c name = Some (None, [OWarn]).
Proof.
  intros W. induction fuel as [|fuel IH]; intros c name HF HC; [lia|]. cbn [lookup].
  pose proof (extract_shorter name) as X1. destruct (extract_name name) as [lf rem]. cbn [snd] in X1.
  set (trip := match lf with [] => let '(l, r) := extract_name rem in (0, l, r) | _ => (c, lf, rem) end).
  assert (T : exists b l r, trip = (b, l, r) /\ (b = c \/ b = 0) /\ length r <= length name - 1).
  { unfold trip. destruct lf; [|do 3 eexists; split; [reflexivity|auto]]. pose proof (extract_shorter rem) as X2. destruct (extract_name rem) as [l r].
    do 3 eexists. split; [reflexivity|]. cbn [snd] in X2. split; [auto|lia]. }
  destruct T as (b & l & r & -> & HB & HR). destruct (w_top t W) as (x0 & X0 & _).
  assert (HBL : b < length (comps t)) by (destruct HB as [-> | ->]; [exact HC|apply nth_error_Some; congruence]).
  destruct (nth_error (comps t) b) as [x|] eqn:E; [|apply nth_error_None in E; lia].
  destruct (get_kid (kids x) l) as [k|] eqn:EK; [|right; reflexivity].
  assert (CH : child t b l k) by (exists x; split; [exact E|now apply get_kid_in]).
  destruct r as [|z r].
  - left. exists k, [l]. split; [reflexivity|]. split; [discriminate|]. destruct HB as [-> | ->]; [left|right]; now apply path_one.
  - pose proof (child_lt t b l k W CH) as KL. assert (0 < length name) by (destruct name; [cbn [length] in HR; lia|cbn; lia]).
    destruct (IH k (z :: r)) as [(d & ns & H1 & H2 & H3)|H1]; [lia|lia| |right; exact H1].
    left. destruct H3 as [H3|H3]; [|exists d, ns; auto]. exists d, (l :: ns). split; [exact H1|]. split; [discriminate|].
    destruct HB as [-> | ->]; [left|right]; econstructor; eauto.
Qed.
(** ** Order of the search *)
Lemma post_sub t c po : wf t -> postorder t c po -> forall d, below t c d -> exists l1 pd l2, po = l1 ++ pd ++ l2 /\ postorder t d pd.
Proof.
  intros W HP d [ns P]. revert po HP. induction P as [c|c n e ns d C P IH]; intros po HP.
  - exists [], po, []. split; [now rewrite app_nil_r|exact HP].
  - inversion HP as [c' x ls E F]; subst. destruct C as (x' & X & HI). assert (x' = x) as -> by congruence. apply (in_map snd) in HI. cbn in HI.
    assert (G : exists a pe b, concat ls = a ++ pe ++ b /\ postorder t e pe).
    { clear - F HI. induction F as [|e' po l ls P F IHF]; [destruct HI|]. cbn [concat]. destruct HI as [<-|HI].
      - exists [], po, (concat ls). auto.
      - destruct (IHF HI) as (a & pe & b & -> & H). exists (po ++ a), pe, b. split; [now rewrite <- app_assoc|exact H]. }
    destruct G as (a & pe & b & G & PE). destruct (IH pe PE) as (l1 & pd & l2 & -> & H). exists (a ++ l1), pd, (l2 ++ b ++ [c]).
    split; [rewrite G; now rewrite <- !app_assoc|exact H].
Qed.
Lemma post_before t c po d e : wf t -> postorder t c po -> below t c d -> below t d e -> e <> d -> exists l1 l2 l3, po = l1 ++ e :: l2 ++ d :: l3.
Proof.
  intros W HP B1 B2 N. destruct (post_sub t c po W HP d B1) as (a & pd & b & -> & PD).
  destruct (post_bounds t W d pd PD) as (_ & l & -> & _). apply (post_in t W d _ PD) in B2. apply in_app_iff in B2. destruct B2 as [B2|[<-|[]]]; [|congruence].
  apply in_split in B2. destruct B2 as (l1 & l2 & ->). exists (a ++ l1), l2, b. rewrite <- !app_assoc. reflexivity.
Qed.

(** uvm_top: its name is its full name *)
Definition top_ok (t : tree) : Prop := forall x, nth_error (comps t) 0 = Some x -> leaf x = full x.
Lemma top_ok_step dec t l : wf t -> top_ok t -> top_ok (fst (step dec t l)).
Proof.
  intros W T. destruct (step_change dec t l) as [l t' SM| |l t' E EB|name p k|c name].
  - intros x H. destruct (same_nth t' t 0 x SM H) as (x' & X & E). injection E as E1 E2 E3 E4. rewrite <- E1, <- E2. eauto.
  - exact T.
  - unfold top_ok. rewrite E. exact T.
  - destruct (new_spec dec t name p k W) as [(px & P & _ & _ & _ & _ & _ & L & N1 & N2 & N3)|(E & _)]; [|unfold top_ok; rewrite E; exact T].
    intros x H. destruct (Nat.eq_dec 0 p) as [<-|NP]; [rewrite N1 in H; injection H as <-; cbn; eauto|].
    destruct (w_top t W) as (y & Y & _). rewrite N3 in H; [eauto|exact NP|]. intros X. rewrite X in Y at 1. assert (length (comps t) < length (comps t)) by (apply nth_error_Some; congruence). lia.
  - destruct (set_name_spec t c name W) as [(-> & _)|(x & -> & E & _ & _ & -> & _)]; [exact T|]. intros y H. cbn [comps] in H. rewrite set_at_nth in H.
    cbn [Nat.eqb] in H. rewrite E in H. injection H as <-. reflexivity.
Qed.
Lemma top_ok_build dec n ls : top_ok (fst (build dec n ls)).
Proof.
  unfold build. assert (G : forall t, wf t -> top_ok t -> top_ok (fst (run_machine (step dec) t ls))).
  2: { apply G; [apply wf0|]. intros x H. injection H as <-. reflexivity. }
  induction ls as [|l ls IH]; intros t W T; [exact T|]. cbn [run_machine]. pose proof (wf_step dec t l W) as W'. pose proof (top_ok_step dec t l W T) as T'.
  destruct (step dec t l) as [t1 o1]. cbn [fst] in *. specialize (IH t1 W' T'). destruct (run_machine (step dec) t1 ls). exact IH.
Qed.
Lemma named t c x : wf t -> top_ok t -> nth_error (comps t) c = Some x -> (leaf x = [] <-> get_full_name x = []).
Proof.
  intros W T X. unfold get_full_name. destruct (Nat.eq_dec c 0) as [->|N]; [rewrite <- (T x X); now destruct (leaf x)|].
  destruct (w_up t W c x X N) as (L & _). pose proof (wf_full t c x W X N). destruct (full x); [congruence|]. split; [congruence|discriminate].
Qed.
