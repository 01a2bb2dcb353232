(** The memory manager: property C135. *)
From Coq Require Import List Bool ZArith Lia.
From Verif Require Import MamModel.
Import ListNotations.
Local Open Scope Z_scope.

(** The request fits into the memory of the manager. *)
Definition fits (c : cfg) (q : Z * Z) : Prop := c_start c <= fst q /\ (snd q - 1) / c_bytes c <= c_end c - fst q.
Lemma serve_app c u a b : serve c u (a ++ b) =
  let (u1, l1) := serve c u a in let (u2, l2) := serve c u1 b in (u2, l1 ++ l2).
Proof.
  revert u. induction a as [|[s n] a IH]; intros u; cbn.
  - destruct (serve c u b); auto.
  - destruct (reserve c u s n) as [u1 x]. rewrite IH. destruct (serve c u1 a) as [u2 l]. destruct (serve c u2 b); auto.
Qed.
Lemma reserve_eq c u s n : 0 < c_bytes c -> 0 < n -> forall u' a, reserve c u s n = (u', a) ->
  (fits c (s, n) -> match u with
                    | [] => exists r, u' = [r] /\ a = Got r /\ r_start r = s /\ r_end r = s + (n - 1) / c_bytes c /\ r_bytes r = ((n - 1) / c_bytes c + 1) * c_bytes c
                    | _ => u' = u /\ a = Raised end) /\
  (~ fits c (s, n) -> u' = u /\ a = Refused).
Proof.
  intros C N u' a. unfold reserve, fits. cbn [fst snd]. rewrite Z.quot_div_nonneg by lia.
  destruct (Z.eqb_spec n 0); [lia|]. destruct (Z.ltb_spec s (c_start c)).
  - intros E. injection E as <- <-. split; [lia|auto].
  - destruct (Z.eqb_spec (c_bytes c) 0); [lia|]. rewrite Z.gtb_ltb. destruct (Z.ltb_spec (c_end c) (s + (n - 1) / c_bytes c)).
    + intros E. injection E as <- <-. split; [lia|auto].
    + destruct u as [|r u]; intros E; injection E as <- <-; (split; [|lia]); auto. intros _. eexists. repeat split. cbn. f_equal. lia.
Qed.

(** Requests that do not fit are refused. The first one that fits gets a region of just the
    offsets it needs; every later one that fits raises, whether it overlaps or not. *)
Theorem C135_history c reqs : 0 < c_bytes c -> (forall q, In q reqs -> 0 < snd q) ->
  forall pre s n post, reqs = pre ++ (s, n) :: post ->
  let answers := snd (serve c [] reqs) in
  nth (length pre) answers Refused =
    snd (reserve c (fst (serve c [] pre)) s n) /\
  (~ fits c (s, n) -> nth (length pre) answers Raised = Refused) /\
  (fits c (s, n) -> (forall q, In q pre -> ~ fits c q) ->
     exists r, nth (length pre) answers Refused = Got r /\ r_start r = s /\
       r_bytes r = (r_end r - r_start r + 1) * c_bytes c /\ n <= r_bytes r < n + c_bytes c /\ c_start c <= r_start r <= r_end r /\ r_end r <= c_end c) /\
  (fits c (s, n) -> (exists q, In q pre /\ fits c q) -> nth (length pre) answers Refused = Raised).
Proof.
  intros C P pre s n post -> answers.
  assert (A : nth_error answers (length pre) = Some (snd (reserve c (fst (serve c [] pre)) s n))).
  { unfold answers. rewrite serve_app. assert (L : length (snd (serve c [] pre)) = length pre).
    { clear. generalize (@nil region). induction pre as [|[s n] pre IH]; intros u; cbn; auto. destruct (reserve c u s n) as [u1 a]. specialize (IH u1).
      destruct (serve c u1 pre). cbn in *. now rewrite IH. }
    destruct (serve c [] pre) as [u1 l1]. cbn [fst snd] in *. cbn [serve]. destruct (reserve c u1 s n) as [u2 a]. destruct (serve c u2 post) as [u3 l3]. cbn [snd].
    rewrite nth_error_app2 by lia. now rewrite L, Nat.sub_diag. }
  assert (AN : forall d, nth (length pre) answers d = snd (reserve c (fst (serve c [] pre)) s n)) by (intros d; now apply nth_error_nth).
  assert (U : (fst (serve c [] pre) = [] <-> forall q, In q pre -> ~ fits c q)).
  { assert (K : forall u l, u <> [] -> fst (serve c u l) = u).
    { clear. intros u l H. revert u H. induction l as [|[s n] l IH]; intros u H; cbn; auto.
      assert (E : fst (reserve c u s n) = u).
      { unfold reserve. destruct (n =? 0); auto. destruct (s <? c_start c); auto. destruct (c_bytes c =? 0); auto.
        destruct (_ >? _); auto. destruct u; [congruence|auto]. }
      destruct (reserve c u s n) as [u1 a]. cbn in E. subst u1. specialize (IH u H). destruct (serve c u l); auto. }
    assert (Pp : forall q, In q pre -> 0 < snd q) by (intros q I; apply P, in_or_app; auto). clear - C K Pp. induction pre as [|[s n] pre IH]; cbn.
    - split; auto.
    - destruct (reserve c [] s n) as [u a] eqn:E. pose proof (reserve_eq c [] s n C (Pp (s, n) (or_introl eq_refl)) u a E) as [F1 F2].
      assert (D : fits c (s, n) \/ ~ fits c (s, n)) by (unfold fits; cbn; lia). destruct D as [D|D].
      + destruct (F1 D) as (r & -> & _). pose proof (K [r] pre ltac:(discriminate)) as Q. destruct (serve c [r] pre) as [u' l]. cbn in *. subst u'.
        split; [discriminate|]. intros H. exfalso. eapply H; eauto.
      + destruct (F2 D) as [-> _]. destruct IH as [I1 I2]; [intros; apply Pp; now right|]. destruct (serve c [] pre) as [u' l]. cbn in *. split.
        * intros H q [<-|I]; auto.
        * intros H. apply I2. intros q I. apply H. now right. }
  assert (N : 0 < n) by (apply (P (s, n)), in_or_app; right; now left).
  rewrite !AN. destruct (reserve c (fst (serve c [] pre)) s n) as [u' a] eqn:E. destruct (reserve_eq c _ s n C N u' a E) as [F1 F2]. cbn [snd].
  split; auto. split; [intros D; now apply F2|]. split.
  - intros D H. specialize (F1 D). rewrite (proj2 U H) in F1. destruct F1 as (r & _ & -> & R1 & R2 & R3). exists r. split; auto. unfold fits in D. cbn in D.
    pose proof (Z.div_mod (n - 1) (c_bytes c) ltac:(lia)) as M. pose proof (Z.mod_pos_bound (n - 1) (c_bytes c) C) as B.
    pose proof (Z.div_pos (n - 1) (c_bytes c) ltac:(lia) C). rewrite R1, R2, R3. repeat match goal with |- _ /\ _ => split end; try lia; nia.
  - intros D (q & I & Q). specialize (F1 D). destruct (fst (serve c [] pre)) as [|x l]; [|tauto]. exfalso. exact (proj1 U eq_refl q I Q).
Qed.
Print Assumptions C135_history.
Example C135_example : snd (serve (Cfg 4 0 15) [] [(20, 4); (2, 5); (0, 4); (8, 100)]) = [Refused; Got (Region 2 3 8); Raised; Refused].
Proof. reflexivity. Qed.
