From Coq Require Import ZArith List Bool Arith String Lia.
From Verif Require Import Prelude PortModel NetModel NetSpec.
Import ListNotations.
Local Open Scope list_scope.

Lemma sapp_assoc a b c : String.append (String.append a b) c = String.append a (String.append b c).
Proof. induction a as [|x a IH]; [reflexivity|]. cbn. now rewrite IH. Qed.
Lemma sapp_nil a : String.append a "" = a.
Proof. induction a as [|x a IH]; [reflexivity|]. cbn. now rewrite IH. Qed.

Lemma leads_app g p a q b r : leads g p a q -> leads g q b r -> leads g p (a ++ b) r.
Proof. induction 1; cbn; auto. intros H1. econstructor; eauto. Qed.
Lemma leads_split g p a b r : leads g p (a ++ b) r -> exists q, leads g p a q /\ leads g q b r.
Proof.
  revert p. induction a as [|i a IH]; intros p H; cbn in *; [exists p; split; [constructor|exact H]|].
  inversion H; subst. destruct (IH c) as (q & H1 & H2); auto. exists q. split; auto. econstructor; eauto.
Qed.
Lemma leads_det g p a q q' : leads g p a q -> leads g p a q' -> q = q'.
Proof.
  intros H. revert q'. induction H; intros q' H'; inversion H'; subst; auto. apply IHleads. congruence.
Qed.
Lemma ascending_app a b : ascending a -> ascending b -> (forall x y, In x a -> In y b -> before x y) -> ascending (a ++ b).
Proof.
  induction 1 as [|x a F _ IH]; intros B H; [exact B|]. cbn. constructor.
  - apply Forall_app. split; [exact F|]. apply Forall_forall. intros y Y. apply H; [now left|exact Y].
  - apply IH; auto. intros u v U V. apply H; [now right|exact V].
Qed.
Lemma ascending_map i l : ascending l -> ascending (map (cons i) l).
Proof.
  induction 1 as [|x a F _ IH]; cbn; constructor; auto. apply Forall_map. eapply Forall_impl; [|exact F]. intros y Y. now constructor.
Qed.

Section Proofs.
Context (nm ty : nat -> string).
Notation walk := (walk nm ty).
Notation row := (row nm ty).
Context (g : nat -> list nat) (stop : Z -> bool).

(** The number of steps still allowed. *)
Definition allow (rem : option nat) (n : nat) : Prop := match rem with None => True | Some m => n <= m end.
Definition agrees (level : Z) (rem : option nat) : Prop :=
  forall k, (0 <= k)%Z -> stop (level + k)%Z = match rem with None => false | Some m => (Z.of_nat m <=? k)%Z end.
Definition less (rem : option nat) : option nat := option_map pred rem.
Lemma agrees_stop level rem : agrees level rem -> stop level = match rem with Some 0 => true | _ => false end.
Proof.
  intros A. specialize (A 0%Z ltac:(lia)). rewrite Z.add_0_r in A. rewrite A. destruct rem as [[|m]|]; auto.
Qed.
Lemma agrees_less level rem : agrees level rem -> rem <> Some 0 -> agrees (level + 1) (less rem).
Proof.
  intros A N k K. replace (level + 1 + k)%Z with (level + (1 + k))%Z by lia. rewrite A by lia. destruct rem as [[|m]|]; [congruence| |reflexivity].
  change (less (Some (S m))) with (Some m). apply Bool.eq_iff_eq_true. rewrite !Z.leb_le. lia.
Qed.
Lemma allow_less rem n : rem <> Some 0 -> allow (less rem) n <-> allow rem (S n).
Proof. intros N. destruct rem as [[|m]|]; cbn; [congruence|lia|tauto]. Qed.

Definition go (k : nat) (level : Z) (num : nat) : nat -> list nat -> string * string -> option (string * string) :=
  fix go (curr : nat) (l : list nat) (st : string * string) : option (string * string) :=
    match l with
    | [] => Some st
    | c :: r =>
        let '(save, indent) := st in
        let save := String.append save (row indent c) in
        let indent := String.append indent (if Nat.ltb 1 num && negb (Nat.eqb curr num) then "    | " else "        ") in
        match walk k stop g (level + 1) c (save, indent) with
        | None => None
        | Some st => go (S curr) r st
        end
    end.
Lemma walk_S k level p st : walk (S k) stop g level p st = if stop level then Some st else go k level (List.length (g p)) 1 (g p) st.
Proof. reflexivity. Qed.

Lemma bar_iff r a0 p i : leads g r a0 p -> i < List.length (g p) ->
  (Nat.ltb 1 (List.length (g p)) && negb (Nat.eqb (S i) (List.length (g p)))) = true <-> more_follow g r (a0 ++ [i]).
Proof.
  intros L I. rewrite andb_true_iff, negb_true_iff, Nat.ltb_lt, Nat.eqb_neq. split.
  - intros [_ H]. exists a0, i, p. repeat split; auto. lia.
  - intros (b & j & p' & E & L' & H). apply app_inj_tail in E as [<- <-]. rewrite (leads_det _ _ _ _ _ L' L) in H. lia.
Qed.

Lemma walk_text fuel : forall rem level p save ind save' ind' r a0, agrees level rem -> leads g r a0 p ->
  walk fuel stop g level p (save, ind) = Some (save', ind') ->
  exists l t, listing g p (allow rem) l /\ text row g r ind (map (app a0) l) t ind' /\ save' = String.append save t.
Proof.
  induction fuel as [|k IH]; intros rem level p save ind save' ind' r a0 A L W; [discriminate|].
  rewrite walk_S, (agrees_stop level rem A) in W.
  assert (Z : rem = Some 0 \/ rem <> Some 0) by (destruct rem as [[|m]|]; auto; right; discriminate). destruct Z as [->|NZ].
  { injection W as <- <-. exists [], ""%string. split; [split; [apply as_nil|]|split; [apply t_nil|now rewrite sapp_nil]].
    intros a. split; [intros []|]. intros (H1 & H2 & _). destruct a; [congruence|]. cbn in H2. lia. }
  replace (match rem with Some 0 => true | _ => false end) with false in W by (destruct rem as [[|m]|]; congruence).
  assert (G : forall l pre save ind, g p = pre ++ l -> go k level (List.length (g p)) (S (List.length pre)) l (save, ind) = Some (save', ind') ->
    exists out t, ascending out /\ (forall a, In a out <-> exists i a', a = i :: a' /\ List.length pre <= i /\ allow rem (List.length a) /\ exists q, leads g p a q) /\
      text row g r ind (map (app a0) out) t ind' /\ save' = String.append save t).
  2: { destruct (G (g p) [] save ind eq_refl W) as (out & t & O1 & O2 & O3 & O4). exists out, t. split; [split; [exact O1|]|split; auto]. intros a. split.
       - intros H. apply O2 in H as (i & a' & -> & _ & H & H'). repeat split; auto. discriminate.
       - intros (H1 & H2 & H3). apply O2. destruct a as [|i a]; [congruence|]. exists i, a. repeat split; auto. cbn. lia. }
  clear W save ind. induction l as [|c l IHl]; intros pre save ind E W.
  - injection W as <- <-. exists [], ""%string. split; [apply as_nil|split; [|split; [apply t_nil|now rewrite sapp_nil]]].
    intros a. split; [intros []|]. intros (i & a' & -> & H & _ & q & H2). inversion H2; subst. rewrite app_nil_r in E. assert (i < List.length (g p)) by (apply nth_error_Some; congruence). rewrite E in *. lia.
  - cbn [go] in W. fold (go k level (List.length (g p))) in W.
    set (i := List.length pre) in *. assert (Ei : nth_error (g p) i = Some c) by (rewrite E; unfold i; rewrite nth_error_app2, Nat.sub_diag by lia; reflexivity).
    assert (LI : i < List.length (g p)) by (apply nth_error_Some; congruence).
    destruct (walk k stop g (level + 1) c _) as [[s1 i1]|] eqn:Ew; [|discriminate].
    assert (Lc : leads g r (a0 ++ [i]) c) by (eapply leads_app; [exact L|]; econstructor; [exact Ei|constructor]).
    destruct (IH (less rem) (level + 1)%Z c _ _ _ _ r (a0 ++ [i]) (agrees_less _ _ A NZ) Lc Ew) as (lc & tc & [C1 C2] & C3 & C4).
    destruct (IHl (pre ++ [c]) s1 i1) as (lr & tr & R1 & R2 & R3 & R4).
    { rewrite <- app_assoc. exact E. } { rewrite app_length. cbn. replace (List.length pre + 1) with (S i) by (unfold i; lia). exact W. }
    rewrite app_length in R2. cbn [List.length] in R2. fold i in R2.
    exists (([i] :: map (cons i) lc) ++ lr), (String.append (row ind c) (String.append tc tr)). split; [|split; [|split]].
    + apply ascending_app; auto.
      * constructor; [|now apply ascending_map]. apply Forall_map, Forall_forall. intros x X. apply C2 in X as (X & _). destruct x; [congruence|]. apply b_same, b_prefix.
      * intros x y X Y. apply R2 in Y as (j & y' & -> & J & _). assert (Hx : exists x', x = i :: x').
        { destruct X as [<-|X]; [eauto|]. apply in_map_iff in X as (x' & <- & _). eauto. }
        destruct Hx as [x' ->]. apply b_less. lia.
    + intros a. rewrite in_app_iff. cbn [In]. rewrite in_map_iff, R2. split.
      * intros [[<-|(x & <- & X)]|(j & a' & -> & J & H1 & H2)].
        -- exists i, []. repeat split; auto; [cbn; destruct rem as [[|m]|]; cbn; auto; [congruence|lia]|]. exists c. econstructor; [exact Ei|constructor].
        -- apply C2 in X as (X1 & X2 & q & X3). exists i, x. repeat split; auto; [cbn [List.length]; now apply allow_less|]. exists q. econstructor; eauto.
        -- exists j, a'. repeat split; auto. lia.
      * intros (j & a' & -> & J & H1 & q & H2). destruct (Nat.eq_dec j i) as [->|N]; [|right; exists j, a'; repeat split; eauto; lia].
        left. destruct a' as [|x a']; [now left|]. right. exists (x :: a'). split; [reflexivity|]. apply C2. inversion H2; subst.
        assert (c0 = c) as -> by congruence. split; [discriminate|]. split; [now apply allow_less|eauto].
    + rewrite map_app. cbn [map]. rewrite map_map. rewrite <- app_comm_cons.
      assert (T : text row g r (String.append ind (if Nat.ltb 1 (List.length (g p)) && negb (Nat.eqb (S i) (List.length (g p))) then "    | " else "        "))
        (map (fun x => a0 ++ i :: x) lc ++ map (app a0) lr) (String.append tc tr) ind').
      { clear - C3 R3. replace (map (fun x => a0 ++ i :: x) lc) with (map (app (a0 ++ [i])) lc) by (apply map_ext; intros x; now rewrite <- app_assoc).
        induction C3; cbn [app].
        - exact R3.
        - rewrite sapp_assoc. apply t_bar; auto.
        - rewrite sapp_assoc. apply t_gap; auto. }
      pose proof (bar_iff r a0 p i L LI) as B. destruct (Nat.ltb 1 _ && _).
      * apply t_bar; auto. now apply B.
      * apply t_gap; auto. intros X. apply B in X. discriminate.
    + rewrite R4, C4, !sapp_assoc. reflexivity.
Qed.

Lemma walk_total fuel : forall rem level p st, agrees level rem -> (forall a q, leads g p a q -> allow rem (List.length a) -> List.length a < fuel) ->
  exists st', walk fuel stop g level p st = Some st'.
Proof.
  induction fuel as [|k IH]; intros rem level p st A H.
  { specialize (H [] p (l_here _ _)). destruct rem; cbn in H; lia. }
  rewrite walk_S, (agrees_stop level rem A).
  assert (Z : rem = Some 0 \/ rem <> Some 0) by (destruct rem as [[|m]|]; auto; right; discriminate). destruct Z as [->|NZ]; [eauto|].
  replace (match rem with Some 0 => true | _ => false end) with false by (destruct rem as [[|m]|]; congruence).
  assert (G : forall l n st, incl l (g p) -> exists st', go k level (List.length (g p)) n l st = Some st').
  { induction l as [|c l IHl]; intros n [s i] I; [cbn; eauto|]. cbn [go]. fold (go k level (List.length (g p))).
    destruct (IH (less rem) (level + 1)%Z c (String.append s (row i c), String.append i (if Nat.ltb 1 (List.length (g p)) && negb (Nat.eqb n (List.length (g p))) then "    | " else "        "))%string) as [st' ->].
    - now apply agrees_less.
    - intros a q La Al. destruct (In_nth_error (g p) c) as [j J]; [apply I; now left|].
      assert (X : List.length (j :: a) < S k); [|cbn in X; lia]. apply (H (j :: a) q); [econstructor; eauto|]. cbn [List.length]. now apply allow_less.
    - apply IHl. intros x X. apply I. now right. }
  apply G, incl_refl.
Qed.
Lemma walk_bound fuel : forall rem level p st st', agrees level rem -> walk fuel stop g level p st = Some st' ->
  forall a q, leads g p a q -> allow rem (List.length a) -> List.length a < fuel.
Proof.
  induction fuel as [|k IH]; intros rem level p st st' A W a q La Al; [discriminate|].
  rewrite walk_S, (agrees_stop level rem A) in W. destruct a as [|i a]; [cbn; lia|].
  assert (NZ : rem <> Some 0) by (intros ->; cbn in Al; lia).
  replace (match rem with Some 0 => true | _ => false end) with false in W by (destruct rem as [[|m]|]; congruence).
  inversion La; subst.
  assert (G : forall l n st, In c l -> go k level (List.length (g p)) n l st = Some st' -> exists st1 st2, walk k stop g (level + 1) c st1 = Some st2).
  { induction l as [|x l IHl]; intros n [s0 i0] I G; [destruct I|]. cbn [go] in G. fold (go k level (List.length (g p))) in G.
    destruct (walk k stop g (level + 1) x _) as [st2|] eqn:E; [|discriminate]. destruct I as [->|I]; eauto. }
  destruct (G (g p) 1 st) as (st1 & st2 & E); auto; [eapply nth_error_In; eauto|].
  specialize (IH (less rem) (level + 1)%Z c st1 st2 (agrees_less _ _ A NZ) E a q). cbn [List.length] in *. specialize (IH ltac:(assumption)).
  assert (X : allow (less rem) (List.length a)) by now apply allow_less. specialize (IH X). lia.
Qed.
End Proofs.
