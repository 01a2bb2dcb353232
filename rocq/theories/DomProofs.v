(** Proofs about the queries on phases and wait_for_state. *)
From Coq Require Import ZArith List Bool Arith Ascii String Lia.
From Verif Require Import Prelude DomModel DomSpec.
Import ListNotations.
Local Open Scope nat_scope.
Local Open Scope list_scope.

Lemma kind_eqb_eq a b : kind_eqb a b = true <-> a = b.
Proof. destruct a, b; cbn; split; congruence. Qed.
Lemma kind_eqb_neq a b : kind_eqb a b = false <-> a <> b.
Proof. destruct a, b; cbn; split; congruence. Qed.
Lemma oeqb_eq a b : oeqb a b = true <-> a = b.
Proof. destruct a as [x|], b as [y|]; cbn; try (split; congruence). rewrite Nat.eqb_eq. split; congruence. Qed.

Section Info.
Context (i : info).
Notation isk := (is_kind i).
Lemma isk_eq k n : isk k n = true <-> kd i n = k. Proof. apply kind_eqb_eq. Qed.
Lemma isk_neq k n : isk k n = false <-> kd i n <> k. Proof. apply kind_eqb_neq. Qed.

(** *** Domains and schedules *)
Lemma get_domain_sound fuel : forall n r, get_domain i fuel n = Some r -> domain_is i n r.
Proof.
  induction fuel as [|f IH]; cbn [get_domain]; intros n r H; [discriminate|]. destruct (isk DOMAIN n) eqn:E.
  - injection H as <-. apply dom_self. now apply isk_eq.
  - apply isk_neq in E. destruct (par i n) as [p|] eqn:Ep; [apply (dom_up i n p); auto|injection H as <-; now apply dom_none].
Qed.
Lemma domain_is_fun n r : domain_is i n r -> forall r', domain_is i n r' -> r = r'.
Proof. induction 1; intros r' H'; inversion H'; subst; try congruence; try tauto. apply IHdomain_is. congruence. Qed.
Lemma get_schedule_sound fuel n r : get_schedule i fuel false n = Some r -> schedule_is i n r.
Proof.
  unfold get_schedule, schedule_is. intros [= <-]. destruct (kd i n) eqn:E; auto; try (right; right; repeat split; congruence).
  destruct (par i n) as [p|] eqn:Ep; [|right; right; repeat split; congruence]. destruct (isk DOMAIN p) eqn:Ek.
  - apply isk_eq in Ek. right. right. repeat split; try congruence.
  - apply isk_neq in Ek. right. left. exists p. auto.
Qed.
Lemma schedule_is_fun n r r' : schedule_is i n r -> schedule_is i n r' -> r = r'.
Proof.
  intros [[H1 H2]|[(p & H1 & H2 & H3 & H4)|(H1 & H2 & H3)]] [[K1 K2]|[(q & K1 & K2 & K3 & K4)|(K1 & K2 & K3)]]; try congruence.
  all: exfalso; first [apply H3; now apply K2|apply K3; now apply H2].
Qed.
Lemma in_scope_true fuel orig m : in_scope i fuel true orig m = Some true -> together i m orig.
Proof.
  unfold in_scope. cbn [negb]. destruct (get_schedule i fuel false m) as [a|] eqn:Ea; [|discriminate]. destruct (get_schedule i fuel false orig) as [b|] eqn:Eb; [|discriminate].
  destruct (oeqb a b) eqn:E.
  - intros _. apply oeqb_eq in E as ->. left. exists b. split; eapply get_schedule_sound; eauto.
  - destruct (get_domain i fuel m) as [c|] eqn:Ec; [|discriminate]. destruct (get_domain i fuel orig) as [d|] eqn:Ed; [|discriminate]. intros [= H]. apply oeqb_eq in H as ->.
    right. exists d. split; eapply get_domain_sound; eauto.
Qed.
Lemma in_scope_false fuel orig m : in_scope i fuel true orig m = Some false -> ~ together i m orig.
Proof.
  unfold in_scope. cbn [negb]. destruct (get_schedule i fuel false m) as [a|] eqn:Ea; [|discriminate]. destruct (get_schedule i fuel false orig) as [b|] eqn:Eb; [|discriminate].
  destruct (oeqb a b) eqn:E; [discriminate|]. apply get_schedule_sound in Ea, Eb.
  destruct (get_domain i fuel m) as [c|] eqn:Ec; [|discriminate]. destruct (get_domain i fuel orig) as [d|] eqn:Ed; [|discriminate]. intros [= H]. apply get_domain_sound in Ec, Ed.
  intros [(r & R1 & R2)|(r & R1 & R2)].
  - rewrite (schedule_is_fun _ _ _ Ea R1), (schedule_is_fun _ _ _ Eb R2) in E. assert (oeqb r r = true) by now apply oeqb_eq. congruence.
  - rewrite (domain_is_fun _ _ Ec _ R1), (domain_is_fun _ _ Ed _ R2) in H. assert (oeqb r r = true) by now apply oeqb_eq. congruence.
Qed.
Lemma in_scope_yes fuel stay orig m : in_scope i fuel stay orig m = Some true -> stay = true -> together i m orig.
Proof. intros H ->. eapply in_scope_true; eauto. Qed.
Lemma in_scope_no fuel stay orig m : in_scope i fuel stay orig m = Some false -> stay = true /\ ~ together i m orig.
Proof. destruct stay; [|discriminate]. intros H. split; [reflexivity|]. eapply in_scope_false; eauto. Qed.

(** *** Search by name *)
Lemma find_name_some stay orig nbr name fuel : forall n m, m_find_name i fuel stay orig nbr name n = Some (Some m) -> nm i m = name /\ leads i stay orig nbr n m.
Proof.
  induction fuel as [|f IH]; intros n m; [discriminate|]. cbn [m_find_name]. destruct (String.eqb_spec (nm i n) name) as [E|E]; [intros [= <-]; split; [exact E|apply l_here]|].
  assert (G : forall l, incl l (nbr n) -> (fix go (l : list nat) : option (option nat) :=
              match l with
              | [] => Some None
              | m :: t =>
                  match in_scope i (S f) stay orig m with
                  | None => None
                  | Some false => go t
                  | Some true => match m_find_name i f stay orig nbr name m with None => None | Some (Some r) => Some (Some r) | Some None => go t end
                  end
              end) l = Some (Some m) -> nm i m = name /\ leads i stay orig nbr n m).
  { induction l as [|k t IHl]; intros Hl; [discriminate|]. assert (Hk : In k (nbr n)) by (apply Hl; now left). assert (Ht : incl t (nbr n)) by (intros x Hx; apply Hl; now right).
    destruct (in_scope i (S f) stay orig k) as [[]|] eqn:Es; [|now apply IHl|discriminate]. destruct (m_find_name i f stay orig nbr name k) as [[r|]|] eqn:Er; [|now apply IHl|discriminate].
    intros [= <-]. apply IH in Er as [R1 R2]. split; [exact R1|]. apply (l_next i stay orig nbr n k r); auto. eapply in_scope_yes; eauto. }
  apply G. intros x Hx. exact Hx.
Qed.
Lemma find_name_none stay orig nbr name fuel : forall n, m_find_name i fuel stay orig nbr name n = Some None -> forall m, leads i stay orig nbr n m -> nm i m <> name.
Proof.
  induction fuel as [|f IH]; intros n; [discriminate|]. cbn [m_find_name]. destruct (String.eqb_spec (nm i n) name) as [E|E]; [discriminate|].
  intros H m L. inversion L as [|? k ? Hk Hs Lk]; subst; [exact E|]. clear L. revert H Hk.
  generalize (nbr n). induction l as [|j t IHl]; intros H Hk; [destruct Hk|].
  destruct (in_scope i (S f) stay orig j) as [[]|] eqn:Es; [|destruct Hk as [<-|Hk]; [destruct (in_scope_no _ _ _ _ Es) as [E1 E2]; exfalso; auto|now apply IHl]|discriminate].
  destruct (m_find_name i f stay orig nbr name j) as [[r|]|] eqn:Er; [discriminate| |discriminate]. destruct Hk as [<-|Hk]; [eapply IH; eauto|now apply IHl].
Qed.

(** *** Search of a phase *)
Lemma matches_wanted q n : matches i q n = true <-> wanted i q n.
Proof. destruct q as [m|p]; cbn; [rewrite Nat.eqb_eq; split; congruence|apply oeqb_eq]. Qed.
Lemma first_in_some fuel stay orig l m : first_in i fuel stay orig l = Some (Some m) -> In m l /\ (stay = true -> together i m orig).
Proof.
  induction l as [|k t IH]; cbn [first_in]; [discriminate|]. destruct (in_scope i fuel stay orig k) as [[]|] eqn:E; [|intros H; destruct (IH H); split; [now right|assumption]|discriminate].
  intros [= <-]. split; [now left|]. eapply in_scope_yes; eauto.
Qed.
Lemma first_in_none fuel stay orig l : first_in i fuel stay orig l = Some None -> forall m, In m l -> stay = true /\ ~ together i m orig.
Proof.
  induction l as [|k t IH]; cbn [first_in]; [intros _ m []|]. destruct (in_scope i fuel stay orig k) as [[]|] eqn:E; [discriminate| |discriminate].
  intros H m [<-|Hm]; [eapply in_scope_no; eauto|now apply IH].
Qed.
Lemma m_find_some stay orig nbr q fuel : forall n m, m_find i fuel stay orig nbr q n = Some (Some m) -> wanted i q m /\ leads i stay orig nbr n m.
Proof.
  induction fuel as [|f IH]; intros n m; [discriminate|]. cbn [m_find]. destruct (matches i q n) eqn:E; [intros [= <-]; split; [now apply matches_wanted|apply l_here]|].
  destruct (first_in i (S f) stay orig (nbr n)) as [[k|]|] eqn:Ef; try discriminate. intros H. apply IH in H as [H1 H2]. apply first_in_some in Ef as [F1 F2].
  split; [exact H1|]. now apply (l_next i stay orig nbr n k m).
Qed.
Lemma m_find_none stay orig nbr q fuel : no_choice i stay orig nbr -> forall n, m_find i fuel stay orig nbr q n = Some None -> forall m, leads i stay orig nbr n m -> ~ wanted i q m.
Proof.
  intros NC. induction fuel as [|f IH]; intros n; [discriminate|]. cbn [m_find]. destruct (matches i q n) eqn:E; [discriminate|]. intros H m L. inversion L as [|? k ? Hk Hs Lk]; subst.
  - rewrite <- matches_wanted. congruence.
  - destruct (first_in i (S f) stay orig (nbr n)) as [[j|]|] eqn:Ef; [|destruct (first_in_none _ _ _ _ Ef k Hk) as [E1 E2]; exfalso; auto|discriminate].
    apply first_in_some in Ef as [F1 F2]. assert (k = j) as -> by (apply (NC n); auto). eapply IH; eauto.
Qed.

(** *** Termination *)
Lemma get_domain_ends h fuel : (forall n p, par i n = Some p -> h p < h n) -> forall n, h n < fuel -> exists r, get_domain i fuel n = Some r.
Proof.
  intros Hh. induction fuel as [|f IH]; intros n Hn; [lia|]. cbn [get_domain]. destruct (isk DOMAIN n); [eauto|]. destruct (par i n) as [p|] eqn:E; [|eauto]. apply IH. specialize (Hh n p E). lia.
Qed.
Lemma in_scope_ends h fuel stay orig m : (forall n p, par i n = Some p -> h p < h n) -> h orig < fuel -> h m < fuel -> exists b, in_scope i fuel stay orig m = Some b.
Proof.
  intros Hh Ho Hm. unfold in_scope. destruct (negb stay); [eauto|]. cbn [get_schedule].
  destruct (get_domain_ends h fuel Hh m Hm) as [a ->]. destruct (get_domain_ends h fuel Hh orig Ho) as [b ->].
  match goal with |- context [oeqb ?x ?y] => destruct (oeqb x y) end; eauto.
Qed.
Section Ends.
Context (h rk : nat -> nat) (B : nat) (nbr : nat -> list nat).
Hypothesis Hh : forall n p, par i n = Some p -> h p < h n.
Hypothesis Hb : forall n, h n < B.
Hypothesis Hrk : forall n m, In m (nbr n) -> rk m < rk n.
Lemma m_find_ends stay orig q fuel : forall n, B + rk n < fuel -> exists r, m_find i fuel stay orig nbr q n = Some r.
Proof.
  induction fuel as [|f IH]; intros n Hn; [lia|]. cbn [m_find]. destruct (matches i q n); [eauto|].
  assert (G : exists r, first_in i (S f) stay orig (nbr n) = Some r).
  { induction (nbr n) as [|k t IHl]; cbn [first_in]; [eauto|]. destruct (in_scope_ends h (S f) stay orig k) as [[] ->]; eauto; [specialize (Hb orig); lia|specialize (Hb k); lia]. }
  destruct G as [[k|] E]; rewrite E; [|eauto]. apply IH. apply first_in_some in E as [E _]. specialize (Hrk n k E). lia.
Qed.
Lemma m_find_name_ends stay orig name fuel : forall n, B + rk n < fuel -> exists r, m_find_name i fuel stay orig nbr name n = Some r.
Proof.
  induction fuel as [|f IH]; intros n Hn; [lia|]. cbn [m_find_name]. destruct (String.eqb (nm i n) name); [eauto|].
  assert (G : forall k, In k (nbr n) -> exists r, m_find_name i f stay orig nbr name k = Some r) by (intros k Hk; apply IH; specialize (Hrk n k Hk); lia).
  induction (nbr n) as [|k t IHl]; [eauto|]. destruct (in_scope_ends h (S f) stay orig k) as [b ->]; auto; [specialize (Hb orig); lia|specialize (Hb k); lia|].
  destruct b; [|apply IHl; intros j Hj; apply G; now right]. destruct (G k (or_introl eq_refl)) as [[r|] ->]; [eauto|]. apply IHl. intros j Hj. apply G. now right.
Qed.
End Ends.

(** *** Names *)
Lemma inside_domain n ss d : inside i n ss d -> (kd i n <> DOMAIN) -> forall fuel, List.length ss + 2 <= fuel -> get_domain i fuel n = Some (Some d).
Proof.
  induction 1 as [n d Hp Hd|n p ss d Hp Hk _ IH]; intros Hn fuel Hf; (destruct fuel as [|f]; [lia|]); cbn [get_domain]; rewrite (proj2 (isk_neq _ _) Hn), Hp.
  - destruct f as [|f]; [cbn in Hf; lia|]. cbn [get_domain]. now rewrite (proj2 (isk_eq _ _) Hd).
  - apply IH; [congruence|cbn in Hf; lia].
Qed.
Lemma inside_climb n ss d : inside i n ss d -> forall fuel, List.length ss < fuel -> climb i fuel n = Some (last ss n).
Proof.
  induction 1 as [n d Hp Hd|n p ss d Hp Hk _ IH]; intros fuel Hf; (destruct fuel as [|f]; [lia|]); cbn [climb]; rewrite Hp.
  - rewrite (proj2 (isk_neq _ _)) by congruence. reflexivity.
  - rewrite (proj2 (isk_eq _ _) Hk). rewrite (IH f) by (cbn in Hf; lia). destruct ss as [|q t]; [reflexivity|]. f_equal.
    clear. change (last (p :: q :: t) n) with (last (q :: t) n). revert q. induction t as [|x t IH]; intros q; [reflexivity|]. change (last (q :: x :: t) p) with (last (x :: t) p). change (last (q :: x :: t) n) with (last (x :: t) n). apply IH.
Qed.
Lemma dotted_cons x l : l <> [] -> dotted (x :: l) = String.append x (String.append "." (dotted l)).
Proof. destruct l; [congruence|reflexivity]. Qed.
Lemma dotted_snoc l x : l <> [] -> dotted (l ++ [x]) = String.append (dotted l) (String.append "." x).
Proof.
  assert (A : forall a b c, String.append (String.append a b) c = String.append a (String.append b c)) by (induction a; cbn; intros; congruence).
  induction l as [|y t IH]; intros H; [congruence|]. destruct t as [|z t]; [reflexivity|]. change ((y :: z :: t) ++ [x]) with (y :: (z :: t) ++ [x]).
  rewrite dotted_cons by discriminate. rewrite IH by discriminate. rewrite (dotted_cons y (z :: t)) by discriminate. now rewrite !A.
Qed.
Lemma append_nonempty a b : a <> ""%string -> String.append a b <> ""%string.
Proof. destruct a; [congruence|discriminate]. Qed.
Lemma inside_fun n ss d : inside i n ss d -> forall ss' d', inside i n ss' d' -> ss = ss' /\ d = d'.
Proof.
  induction 1 as [n d Hp Hd|n p ss d Hp Hk _ IH]; intros ss' d' H'; inversion H' as [? ? Hp' Hd'|? p' ss'' ? Hp' Hk' H'']; subst.
  - split; congruence.
  - exfalso. congruence.
  - exfalso. congruence.
  - assert (p' = p) as -> by congruence. destruct (IH ss'' d' H''). split; congruence.
Qed.
Lemma inside_irrefl n p ss d : inside i n (p :: ss) d -> p <> n.
Proof.
  intros H ->. inversion H as [|? ? ? ? Hp Hk H']; subst. destruct (inside_fun _ _ _ H _ _ H') as [E _]. apply (f_equal (@List.length nat)) in E. cbn in E. lia.
Qed.
Lemma sched_name_inside n ss d : inside i n ss d -> (forall k, In k ss -> nm i k <> ""%string) -> forall fuel s, List.length ss < fuel -> s <> ""%string ->
  sched_name i fuel n s = Some (dotted (rev (map (nm i) ss) ++ [s])).
Proof.
  induction 1 as [n d Hp Hd|n p ss d Hp Hk H IH]; intros Hne fuel s Hf Hs; (destruct fuel as [|f]; [lia|]); cbn [sched_name]; rewrite Hp.
  - rewrite (proj2 (isk_neq SCHEDULE d)) by congruence. rewrite andb_false_r. reflexivity.
  - rewrite (proj2 (isk_eq SCHEDULE p) Hk). assert (Hpn : p <> n) by (apply (inside_irrefl n p ss d); apply (in_schedule i n p ss d Hp Hk H)).
    apply Nat.eqb_neq in Hpn. rewrite Hpn. cbn [negb andb]. cbn [map rev]. rewrite <- app_assoc. cbn [app].
    assert (E : (match s with EmptyString => "" | _ => "." end = ".")%string) by (destruct s; congruence). rewrite E.
    rewrite IH; [|intros k Hk'; apply Hne; now right|cbn in Hf; lia|apply append_nonempty, Hne; now left]. f_equal.
    destruct (rev (map (nm i) ss)) as [|y t] eqn:Er; [reflexivity|]. rewrite dotted_snoc by discriminate.
    change ((y :: t) ++ [nm i p; s]) with ((y :: t) ++ [nm i p] ++ [s]). rewrite app_assoc. rewrite dotted_snoc by (destruct t; discriminate). rewrite dotted_snoc by discriminate.
    assert (A : forall a b c, String.append (String.append a b) c = String.append a (String.append b c)) by (induction a; cbn; intros; congruence). now rewrite !A.
Qed.
Lemma full_node n ss d fuel : kd i n = NODE -> inside i n ss d -> (forall k, In k ss -> nm i k <> ""%string) -> List.length ss + 2 <= fuel ->
  get_full_name i fuel n = Some (dotted (nm i d :: rev (map (nm i) ss) ++ [nm i n])).
Proof.
  intros Hk H Hne Hf. unfold get_full_name, get_domain_name, get_schedule_name. rewrite (inside_domain n ss d H) by (congruence || lia). cbn [get_schedule]. rewrite Hk.
  rewrite (proj2 (isk_neq DOMAIN n)), (proj2 (isk_neq SCHEDULE n)) by congruence. cbn [orb].
  inversion H as [? ? Hp Hd|? p ss' ? Hp Hs H']; subst; rewrite Hp.
  - rewrite (proj2 (isk_eq DOMAIN d) Hd). reflexivity.
  - rewrite (proj2 (isk_neq DOMAIN p)) by congruence. rewrite (sched_name_inside p ss' d H'); [|intros k Hk'; apply Hne; now right|cbn in Hf; lia|apply Hne; now left].
    cbn [map rev]. set (l := rev (map (nm i) ss') ++ [nm i p]).
    assert (Hl : l <> []) by (unfold l; destruct (rev (map (nm i) ss')); discriminate).
    assert (Hd : dotted l <> ""%string).
    { unfold l. destruct (rev (map (nm i) ss')) as [|y t] eqn:Er; [cbn; apply Hne; now left|]. apply (f_equal (@rev string)) in Er. rewrite rev_involutive in Er.
      assert (Hy : exists k, In k ss' /\ nm i k = y). { assert (In y (map (nm i) ss')) by (rewrite Er; apply in_rev; rewrite rev_involutive; now left). apply in_map_iff in H0 as (k & K1 & K2). eauto. }
      destruct Hy as (k & K1 & K2). cbn [app]. rewrite dotted_cons by (destruct t; discriminate). apply append_nonempty. rewrite <- K2. apply Hne. now right. }
    destruct (dotted l) as [|a r] eqn:El; [congruence|]. rewrite <- El.
    rewrite dotted_cons by (destruct l; discriminate). rewrite dotted_snoc by exact Hl.
    assert (A : forall a b c, String.append (String.append a b) c = String.append a (String.append b c)) by (induction a0; cbn; intros; congruence). now rewrite !A.
Qed.
Lemma full_schedule n ss d fuel : kd i n = SCHEDULE -> inside i n ss d -> (forall k, In k (n :: ss) -> nm i k <> ""%string) -> List.length ss + 2 <= fuel ->
  get_full_name i fuel n = Some (dotted (nm i d :: rev (map (nm i) ss) ++ [nm i n])).
Proof.
  intros Hk H Hne Hf. unfold get_full_name, get_domain_name, get_schedule_name. rewrite (inside_domain n ss d H) by (congruence || lia). cbn [get_schedule]. rewrite Hk.
  rewrite (proj2 (isk_eq SCHEDULE n) Hk), orb_true_r. rewrite (sched_name_inside n ss d H); [|intros k Hk'; apply Hne; now right|lia|apply Hne; now left].
  set (l := rev (map (nm i) ss) ++ [nm i n]). assert (Hl : l <> []) by (unfold l; destruct (rev (map (nm i) ss)); discriminate).
  assert (Hd : dotted l <> ""%string).
  { unfold l. destruct (rev (map (nm i) ss)) as [|y t] eqn:Er; [cbn; apply Hne; now left|]. apply (f_equal (@rev string)) in Er. rewrite rev_involutive in Er.
    assert (Hy : exists k, In k ss /\ nm i k = y). { assert (In y (map (nm i) ss)) by (rewrite Er; apply in_rev; rewrite rev_involutive; now left). apply in_map_iff in H0 as (k & K1 & K2). eauto. }
    destruct Hy as (k & K1 & K2). cbn [app]. rewrite dotted_cons by (destruct t; discriminate). apply append_nonempty. rewrite <- K2. apply Hne. now right. }
  destruct (dotted l) as [|a r] eqn:El; [congruence|]. rewrite <- El. now rewrite dotted_cons by exact Hl.
Qed.
End Info.

(** *** Dotted names are unique *)
Lemma append_assoc a : forall b c, String.append (String.append a b) c = String.append a (String.append b c).
Proof. induction a; cbn; intros; congruence. Qed.
Lemma dot_split x : forall y r s, no_dot x -> no_dot y -> String.append x (String "." r) = String.append y (String "." s) -> x = y /\ r = s.
Proof.
  induction x as [|a x IH]; intros [|b y] r s Hx Hy; cbn in *.
  - intros [= ->]. auto.
  - intros [= E _]. exfalso. now apply (proj1 Hy).
  - intros [= E _]. exfalso. now apply (proj1 Hx).
  - intros [= -> E]. destruct (IH y r s) as [-> ->]; tauto.
Qed.
Lemma dot_none x : forall y s, no_dot x -> x <> String.append y (String "." s).
Proof.
  induction x as [|a x IH]; intros [|b y] s Hx; cbn in *; try discriminate.
  - intros [= E _]. now apply (proj1 Hx).
  - intros [= _ E]. now apply (IH y s (proj2 Hx)).
Qed.
Lemma dotted_inj l : forall l', Forall no_dot l -> Forall no_dot l' -> l <> [] -> l' <> [] -> dotted l = dotted l' -> l = l'.
Proof.
  induction l as [|x t IH]; intros [|y u] H H' Hl Hl' E; try congruence. inversion H as [|? ? Hx Ht]; inversion H' as [|? ? Hy Hu]; subst.
  destruct t as [|x2 t], u as [|y2 u].
  - cbn in E. congruence.
  - exfalso. rewrite (dotted_cons y) in E by discriminate. cbn [dotted] in E. now apply dot_none in E.
  - exfalso. rewrite (dotted_cons x) in E by discriminate. symmetry in E. cbn [dotted] in E. now apply dot_none in E.
  - rewrite (dotted_cons x), (dotted_cons y) in E by discriminate. apply dot_split in E as [-> E]; auto. f_equal. apply IH; auto; discriminate.
Qed.

(** *** wait_for_state *)
Lemma holds_meets op st m : holds op st m = true <-> meets op st m.
Proof.
  assert (L : (Z.land st m = 0)%Z <-> ~ exists k, (0 <= k)%Z /\ Z.testbit st k = true /\ Z.testbit m k = true).
  { split.
    - intros E (k & Hk & A & B). assert (Z.testbit (Z.land st m) k = true) by (rewrite Z.land_spec, A, B; reflexivity). rewrite E, Z.bits_0 in H. discriminate.
    - intros H. apply Z.bits_inj'. intros k Hk. rewrite Z.land_spec, Z.bits_0. destruct (Z.testbit st k) eqn:A, (Z.testbit m k) eqn:B; auto. exfalso. apply H. eauto. }
  destruct op; cbn [holds meets]; rewrite ?negb_true_iff, ?Z.eqb_eq, ?Z.eqb_neq, ?Z.leb_le, ?Z.ltb_lt; try lia; [exact L|].
  split; [|intros H E; apply L in E; tauto].
  intros E. destruct (Z.eq_dec (Z.land st m) 0) as [|Hn]; [contradiction|]. clear E.
  assert (Hx : exists k, (0 <= k)%Z /\ Z.testbit (Z.land st m) k = true).
  { destruct (Z.lt_total 0 (Z.land st m)) as [Hp|[Hp|Hp]]; [|congruence|].
    - exists (Z.log2 (Z.land st m)). split; [apply Z.log2_nonneg|]. now apply Z.bit_log2.
    - exists (Z.log2 (Z.abs (Z.land st m)) + 1)%Z. pose proof (Z.log2_nonneg (Z.abs (Z.land st m))). split; [lia|]. apply Z.bits_iff_neg; [|exact Hp].
      lia. }
  destruct Hx as (k & Hk & T). rewrite Z.land_spec in T. apply andb_true_iff in T. exists k. tauto.
Qed.
Lemma wtrace_app s a b : wtrace s (a ++ b) = wtrace s a ++ wtrace (wafter s a) b.
Proof. revert s. induction a as [|l t IH]; intros s; cbn; [reflexivity|]. now rewrite IH. Qed.
Lemma wafter_app s a b : wafter s (a ++ b) = wafter (wafter s a) b.
Proof. revert s. induction a as [|l t IH]; intros s; cbn; [reflexivity|]. now rewrite IH. Qed.
Definition look (s : wstate) (p : nat) : option waiter := List.find (fun w => Nat.eqb (wid w) p) (ws s).
Lemma find_map_same (f : waiter -> waiter) p l : (forall w, wid (f w) = wid w) -> List.find (fun w => Nat.eqb (wid w) p) (map f l) = option_map f (List.find (fun w => Nat.eqb (wid w) p) l).
Proof. intros H. induction l as [|w t IH]; cbn; [reflexivity|]. rewrite H. destruct (Nat.eqb (wid w) p); [reflexivity|exact IH]. Qed.
Lemma find_snoc (f : waiter -> bool) l w : List.find f (l ++ [w]) = match List.find f l with Some x => Some x | None => if f w then Some w else None end.
Proof. induction l as [|x t IH]; cbn; [reflexivity|]. destruct (f x); [reflexivity|exact IH]. Qed.
Lemma find_filter p q l : List.find (fun w => Nat.eqb (wid w) p) (filter (fun w => negb (Nat.eqb (wid w) q)) l) = if Nat.eqb p q then None else List.find (fun w => Nat.eqb (wid w) p) l.
Proof.
  induction l as [|w t IH]; cbn; [now destruct (Nat.eqb p q)|]. destruct (Nat.eqb_spec (wid w) q) as [E|E]; cbn.
  - rewrite IH. destruct (Nat.eqb_spec p q) as [F|F]; [reflexivity|]. destruct (Nat.eqb_spec (wid w) p); [congruence|reflexivity].
  - destruct (Nat.eqb_spec (wid w) p) as [F|F]; [|exact IH]. destruct (Nat.eqb_spec p q); [congruence|reflexivity].
Qed.
Lemma look_exists s p : existsb (fun w => Nat.eqb (wid w) p) (ws s) = match look s p with Some _ => true | None => false end.
Proof. unfold look. induction (ws s) as [|w t IH]; cbn; [reflexivity|]. destruct (Nat.eqb (wid w) p); [reflexivity|exact IH]. Qed.
Lemma look_wid s p w : look s p = Some w -> wid w = p.
Proof. intros H. apply find_some in H as [_ H]. now apply Nat.eqb_eq in H. Qed.
(** What one step does to process p. *)
Definition step_look (s : wstate) (l : wlab) (p : nat) : option waiter :=
  match l with
  | Call q op st => if Nat.eqb q p then match look s p with Some w => Some w | None => Some (Waiter p op st (if ev s then Released else Blocked)) end else look s p
  | Set_state _ => option_map release (look s p)
  | Sched q => if Nat.eqb q p then match look s p with Some (Waiter _ op st Released) => if holds op st (m_state s) then None else Some (Waiter p op st Blocked) | r => r end else look s p
  end.
Lemma wstep_look s l p : look (fst (wstep s l)) p = step_look s l p.
Proof.
  destruct l as [q op st|st|q]; cbn [wstep step_look].
  - rewrite look_exists. destruct (look s q) as [w|] eqn:E; cbn [fst].
    + destruct (Nat.eqb_spec q p) as [->|]; [now rewrite E|reflexivity].
    + unfold look in *. cbn [ws]. rewrite find_snoc. cbn [wid]. destruct (Nat.eqb_spec q p) as [->|Hq]; [rewrite E; reflexivity|]. now destruct (List.find (fun w => Nat.eqb (wid w) p) (ws s)).
  - unfold look. cbn [fst ws]. now apply find_map_same.
  - fold (look s q). destruct (look s q) as [[x op st [|]]|] eqn:E; cbn [fst].
    + destruct (Nat.eqb_spec q p) as [->|]; [now rewrite E|reflexivity].
    + destruct (holds op st (m_state s)) eqn:Eh; cbn [fst].
      * unfold look at 1. cbn [ws]. rewrite find_filter. rewrite (Nat.eqb_sym p q). destruct (Nat.eqb_spec q p) as [->|]; [now rewrite E, Eh|reflexivity].
      * unfold look at 1. cbn [ws]. rewrite find_map_same by (intros w; destruct (Nat.eqb_spec (wid w) q); [cbn; congruence|reflexivity]). fold (look s p).
        destruct (Nat.eqb_spec q p) as [->|Hq]; [rewrite E, Eh; cbn [option_map wid]; pose proof (look_wid _ _ _ E) as W; cbn in W; subst; now rewrite Nat.eqb_refl|].
        destruct (look s p) as [w|] eqn:Ep; [|reflexivity]. cbn [option_map]. apply look_wid in Ep. destruct (Nat.eqb_spec (wid w) q); [congruence|reflexivity].
    + destruct (Nat.eqb_spec q p) as [->|]; [now rewrite E|reflexivity].
Qed.
Lemma wstep_returns s l p : In (Returns p) (snd (wstep s l)) <-> l = Sched p /\ exists x op st, look s p = Some (Waiter x op st Released) /\ holds op st (m_state s) = true.
Proof.
  destruct l as [q op st|st|q]; cbn [wstep].
  - destruct (existsb _ _); cbn; split; [intros []|intros [? _]; discriminate|intros []|intros [? _]; discriminate].
  - cbn. split; [intros []|intros [? _]; discriminate].
  - fold (look s q). split.
    + destruct (look s q) as [[x op st [|]]|] eqn:E; cbn; try tauto. destruct (holds op st (m_state s)) eqn:Eh; cbn; [|tauto]. intros [[= ->]|[]]. split; [reflexivity|]. eauto 6.
    + intros [[= ->] (x & op & st & E & Eh)]. rewrite E, Eh. cbn. auto.
Qed.
Lemma wstep_state s l : m_state (fst (wstep s l)) = match l with Set_state st => st | _ => m_state s end.
Proof. destruct l as [q op st|st|q]; cbn [wstep]; [destruct (existsb _ _); reflexivity|reflexivity|]. destruct (List.find _ _) as [[? ? ? []]|]; try reflexivity. destruct (holds _ _ _); reflexivity. Qed.
Lemma wafter_state ls : forall s, m_state (wafter s ls) = state_after (m_state s) ls.
Proof. induction ls as [|l t IH]; intros s; cbn; [reflexivity|]. rewrite IH, wstep_state. unfold state_after. now destruct l. Qed.
Lemma returnsb_iff p e : returnsb p e = true <-> returns p e.
Proof. unfold returnsb, returns. rewrite existsb_exists. split; [intros ([q] & H & E); apply Nat.eqb_eq in E; now subst|intros H; exists (Returns p); split; [exact H|apply Nat.eqb_refl]]. Qed.
Lemma asks_snoc p tr e : asks p (tr ++ [e]) = if returnsb p e then None else match fst e, asks p tr with Call q op st, None => if Nat.eqb q p then Some (op, st) else None | _, a => a end.
Proof. unfold asks. rewrite fold_left_app. cbn [fold_left]. destruct (returnsb p e); [reflexivity|]. destruct (fst e); try reflexivity. now destruct (fold_left _ tr None). Qed.
Lemma asks_look st0 p ls : asks p (wtrace (winit st0) ls) = option_map (fun w => (wop w, wst w)) (look (wafter (winit st0) ls) p).
Proof.
  induction ls as [|l ls IH] using rev_ind; [reflexivity|]. rewrite wtrace_app, wafter_app. set (s := wafter (winit st0) ls) in *. cbn [wtrace wafter]. rewrite asks_snoc, IH, wstep_look. cbn [fst].
  destruct (returnsb p (l, snd (wstep s l))) eqn:E.
  - apply returnsb_iff in E. unfold returns in E. cbn [snd] in E. apply wstep_returns in E as (-> & x & op & st & E & H). cbn [step_look]. now rewrite Nat.eqb_refl, E, H.
  - assert (N : ~ In (Returns p) (snd (wstep s l))) by (intros H; rewrite (proj2 (returnsb_iff p (l, snd (wstep s l))) H) in E; discriminate).
    destruct l as [q op st|st|q]; cbn [step_look].
    + destruct (look s p) as [w|] eqn:El; cbn [option_map]; [now destruct (Nat.eqb q p)|]. now destruct (Nat.eqb q p).
    + destruct (look s p) as [w|]; reflexivity.
    + destruct (Nat.eqb_spec q p) as [->|]; [|reflexivity]. destruct (look s p) as [[x op st [|]]|] eqn:El; try reflexivity. destruct (holds op st (m_state s)) eqn:Eh; [|reflexivity].
      exfalso. apply N, wstep_returns. split; [reflexivity|]. eauto 6.
Qed.
(** A released process whose condition keeps being met returns when it runs. *)
Lemma released_returns p op st ls : forall s, (exists x, look s p = Some (Waiter x op st Released)) -> (forall l1 l2, ls = l1 ++ l2 -> holds op st (state_after (m_state s) l1) = true) ->
  In (Sched p) ls -> exists e, In e (wtrace s ls) /\ returns p e.
Proof.
  induction ls as [|l t IH]; intros s [x Hl] Hst Hin; [destruct Hin|].
  assert (H0 : holds op st (m_state s) = true) by exact (Hst [] (l :: t) eq_refl).
  assert (D : l = Sched p \/ l <> Sched p). { destruct l as [| |q]; try (right; discriminate). destruct (Nat.eq_dec q p) as [->|]; [now left|right; congruence]. }
  destruct D as [->|D].
  - exists (Sched p, snd (wstep s (Sched p))). split; [now left|]. unfold returns. cbn [snd]. apply wstep_returns. split; [reflexivity|]. eauto 6.
  - destruct Hin as [Hin|Hin]; [contradiction|]. destruct (IH (fst (wstep s l))) as (e & E1 & E2); auto.
    + exists x. rewrite wstep_look. destruct l as [q o z|z|q]; cbn [step_look]; rewrite Hl; [now destruct (Nat.eqb q p)|reflexivity|destruct (Nat.eqb_spec q p); [congruence|reflexivity]].
    + intros l1 l2 E. rewrite wstep_state. specialize (Hst (l :: l1) l2). cbn in Hst. rewrite E in Hst. specialize (Hst eq_refl). unfold state_after in *. cbn in Hst. destruct l; exact Hst.
    + exists e. split; [right; exact E1|exact E2].
Qed.
Lemma ev_step s l : ev (fst (wstep s l)) = true -> sets l = true \/ ev s = true.
Proof. destruct l as [q op st|st|q]; cbn [wstep sets]; auto; [destruct (existsb _ _); auto|]. destruct (List.find _ _) as [[? ? ? []]|]; auto. destruct (holds _ _ _); cbn; auto. Qed.
Lemma quiet_ev st0 ls : quiet (wtrace (winit st0) ls) -> ev (wafter (winit st0) ls) = false.
Proof.
  intros (t1 & t2 & E & Q & H). assert (G : exists a b, ls = a ++ b /\ wtrace (winit st0) a = t1 /\ wtrace (wafter (winit st0) a) b = t2).
  { revert E. generalize (winit st0). clear. revert t1. induction ls as [|l t IH]; intros t1 s E; cbn in E.
    - symmetry in E. apply app_eq_nil in E as [-> ->]. now exists [], [].
    - destruct t1 as [|e t1]; cbn in E; [exists [], (l :: t); auto|]. injection E as <- E. destruct (IH t1 (fst (wstep s l)) E) as (a & b & A & B & C). exists (l :: a), b. cbn. subst. auto. }
  destruct G as (a & b & -> & A & B). rewrite wafter_app.
  assert (H0 : ev (wafter (winit st0) a) = false).
  { destruct H as [->|(t0 & p & o & -> & Hp)]; [destruct a; [reflexivity|discriminate]|].
    destruct (exists_last (l := a)) as (a' & l & ->); [intros ->; destruct t0; discriminate|]. rewrite wtrace_app in A. cbn [wtrace] in A. apply app_inj_tail in A as [_ [= -> Ho]]. rewrite wafter_app. cbn [wafter].
    set (s := wafter (winit st0) a') in *. rewrite <- Ho in Hp. apply wstep_returns in Hp as (_ & x & op & st & L & Hh). cbn [wstep]. fold (look s p). rewrite L, Hh. reflexivity. }
  revert H0 B Q. generalize (wafter (winit st0) a). clear. intros s. revert s t2. induction b as [|l t IH]; intros s t2 H0 B Q; [exact H0|]. cbn in *. subst t2.
  apply (IH _ _) with (2 := eq_refl); [|intros e He; apply Q; now right]. destruct (ev (fst (wstep s l))) eqn:E; [|reflexivity]. apply ev_step in E as [E|E]; [|congruence]. specialize (Q _ (or_introl eq_refl)). cbn in Q. congruence.
Qed.
Lemma blocked_stays p ls : forall s, (exists x op st, look s p = Some (Waiter x op st Blocked)) -> forallb (fun l => negb (sets l)) ls = true -> forall e, In e (wtrace s ls) -> ~ returns p e.
Proof.
  induction ls as [|l t IH]; intros s (x & op & st & Hl) Hs e He; [destruct He|]. cbn in Hs. apply andb_true_iff in Hs as [H1 H2]. destruct He as [<-|He].
  - intros R. apply wstep_returns in R as (_ & ? & ? & ? & R & _). congruence.
  - apply (IH (fst (wstep s l))); auto. rewrite wstep_look. destruct l as [q o z|z|q]; cbn [step_look]; [|discriminate|]; rewrite Hl; destruct (Nat.eqb q p); eauto.
Qed.
