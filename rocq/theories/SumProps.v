(** Properties C207-C209: the report summary, the id sets, the text of a message. *)
From Coq Require Import ZArith List Bool Arith String Ascii DecimalString DecimalNat Lia.
From Verif Require Import Prelude PoolModel SumModel SumSpec SumProofs.
Import ListNotations.
Open Scope Z_scope.

(** C207. A summary asked for after any history tells exactly what was executed:
    every severity and every id once, with its number. The message of the catcher
    summary counts as executed before; if its text cannot be formatted, no summary
    is returned. *)
Theorem C207_summary : forall ops catcher,
  let r := snd (step (fst (run ops)) (Summary catcher)) in
  match catcher with
  | Some (true, _) => if fold_left verb_after ops false then r = [OExn]
      else exists l, r = [OSummary l] /\ tells (facts false (ops ++ [Summary catcher])) (id_sum_after ops) l
  | _ => exists l, r = [OSummary l] /\ tells (facts false (ops ++ [Summary catcher])) (id_sum_after ops) l
  end.
Proof.
  intros ops catcher. destruct (run_rel ops) as [H V]. pose proof (run_idsum ops) as I. rewrite facts_app, <- V, <- I. cbn [facts facts1].
  set (s := fst (run ops)) in *. destruct catcher as [[a b]|]; cbn [step].
  - pose proof (fun X => sr_msg (facts false ops) s 0%nat catcher_id b a H X) as M. unfold report in *. rewrite (andb_comm (show_verb s)).
    rewrite app_nil_r. destruct a, (show_verb s) eqn:E; cbn [andb] in *; try reflexivity;
      specialize (M eq_refl); destruct M as [M _]; eexists; (split; [reflexivity|]); apply summary_tells in M; exact M.
  - rewrite ?app_nil_r. eexists. split; [reflexivity|]. now apply summary_tells.
Qed.
Print Assumptions C207_summary.

(** A summary lists every executed severity and id, no line twice. *)
Theorem C207_listed : forall fs b l, tells fs b l ->
  NoDup l /\
  (forall s, In s (sev_names fs) -> In (LSev s (PVal (sev_num s fs))) l) /\
  (b = true -> forall i, In i (id_names fs) -> In (LId i (PVal (id_num i fs))) l).
Proof.
  intros fs b l (sv & iv & F1 & F2 & ->). split; [|split].
  - assert (A : forall A (f : A -> line) d, (forall x y, f x = f y -> x = y) -> NoDup d -> NoDup (map f d)).
    { intros A f d Hf. induction 1 as [|x d N _ IH]; cbn; constructor; auto. rewrite in_map_iff. intros (y & E & Y). apply Hf in E. congruence. }
    assert (N1 : NoDup (map (fun s => LSev s (PVal (sev_num s fs))) sv)) by (apply A; [congruence|eapply firsts_nodup; eauto]).
    assert (N2 : NoDup (map (fun i => LId i (PVal (id_num i fs))) iv)) by (apply A; [congruence|eapply firsts_nodup; eauto]).
    assert (N3 : NoDup (map (fun s => LSev s (PVal (sev_num s fs))) sv ++ (if b then [LIdTitle] ++ map (fun i => LId i (PVal (id_num i fs))) iv else []))).
    { assert (P : forall (a b : list line), NoDup a -> NoDup b -> (forall x, In x a -> ~ In x b) -> NoDup (a ++ b)).
      { induction a as [|x a IH]; intros c Na Nc D; cbn; auto. inversion Na; subst. constructor.
        - rewrite in_app_iff. intros [X|X]; [tauto|]. apply (D x); auto. now left.
        - apply IH; auto. intros y Y. apply D. now right. }
      apply P; auto.
      - destruct b; [|constructor]. cbn [app]. constructor; auto. rewrite in_map_iff. intros (y & E & _). discriminate.
      - intros x X. rewrite in_map_iff in X. destruct X as (y & <- & _). destruct b; [|tauto]. intros [E|E]; [discriminate|].
        cbn [app] in E. rewrite in_map_iff in E. destruct E as (z & E & _). discriminate. }
    set (R := map (fun s => LSev s (PVal (sev_num s fs))) sv ++ (if b then [LIdTitle] ++ map (fun i => LId i (PVal (id_num i fs))) iv else [])) in *.
    assert (D : forall x, In x R -> match x with LSev _ _ | LIdTitle | LId _ _ => True | _ => False end).
    { intros x X. unfold R in X. apply in_app_or in X as [X|X].
      - rewrite in_map_iff in X. destruct X as (y & <- & _). exact I.
      - destruct b; [|destruct X]. destruct X as [<-|X]; [exact I|]. cbn [app] in X. rewrite in_map_iff in X. destruct X as (y & <- & _). exact I. }
    destruct (max_num fs =? 0); [|destruct (max_num fs <=? quit_num 0 0 fs)]; cbn [app];
      repeat (constructor; [cbn [In]; intuition (try discriminate);
        match goal with X : In ?x R |- _ => exact (D _ X) end|]); exact N3.
  - intros s I. rewrite !in_app_iff. right. right. right. left. rewrite in_map_iff. exists s. split; auto. now apply (firsts_in _ _ F1).
  - intros -> i I. rewrite !in_app_iff. right. right. right. right. right. rewrite in_map_iff. exists i. split; auto. now apply (firsts_in _ _ F2).
Qed.
Print Assumptions C207_listed.

(** Without set and reset calls both tables add up to the number of messages executed. *)
Lemma sum_old {A} (c c' : A -> Z) (x : A) d : NoDup d -> (forall y, y <> x -> c' y = c y) -> c' x = c x + 1 ->
  (In x d -> fold_right Z.add 0 (map c' d) = fold_right Z.add 0 (map c d) + 1) /\
  (~ In x d -> fold_right Z.add 0 (map c' d) = fold_right Z.add 0 (map c d)).
Proof.
  intros N Ho Hx. induction N as [|y d Ny N IH]; cbn; [tauto|]. destruct IH as [I1 I2]. split.
  - intros [->|I].
    + rewrite I2; auto. lia.
    + rewrite I1; auto. rewrite (Ho y); [lia|]. intros ->. tauto.
  - intros I. rewrite I2; [|tauto]. rewrite Ho; [reflexivity|]. intros ->. tauto.
Qed.
Lemma sum_occ {A} (dec : forall a b : A, {a = b} + {a <> b}) d : NoDup d -> forall l, incl l d ->
  fold_right Z.add 0 (map (fun x => Z.of_nat (count_occ dec l x)) d) = Z.of_nat (List.length l).
Proof.
  intros N. induction l as [|x l IH]; intros I.
  - cbn [List.length count_occ]. clear N I. induction d as [|y d IH]; cbn; auto.
  - assert (H := sum_old (fun y => Z.of_nat (count_occ dec l y)) (fun y => Z.of_nat (count_occ dec (x :: l) y)) x d N).
    destruct H as [H _].
    + intros y Y. cbn [count_occ]. destruct (dec x y); congruence.
    + cbn [count_occ]. destruct (dec x x); [lia|congruence].
    + rewrite H; [|apply I; now left]. rewrite IH; [|intros y Y; apply I; now right]. cbn [List.length]. lia.
Qed.
Lemma sev_total_app a b : sev_total (a ++ b) = sev_total a + sev_total b.
Proof. unfold sev_total. induction a as [|x a IH]; cbn; auto. rewrite IH. destruct x as [| | | |? []| |]; lia. Qed.
Lemma id_total_app a b : id_total (a ++ b) = id_total a + id_total b.
Proof. unfold id_total. induction a as [|x a IH]; cbn; auto. rewrite IH. destruct x as [| | | |? []| |? []]; lia. Qed.
Definition fsev (f : fact) : list nat := match f with FMsg s _ _ => [s] | _ => [] end.
Notation fsevs := (flat_map fsev).
Definition fid (f : fact) : list string := match f with FMsg _ i _ => [i] | _ => [] end.
Notation fids := (flat_map fid).
Lemma sev_msgs fs : Forall no_set fs -> forall s, sev_num s fs = Z.of_nat (count_occ Nat.eq_dec (fsevs fs) s).
Proof.
  intros F s. induction fs as [|f fs IH] using rev_ind; [reflexivity|]. apply Forall_app in F as [F G]. inversion G as [|? ? G' _]; subst.
  rewrite sev_snoc, flat_map_app, count_occ_app. rewrite (IH F). destruct f; try (now destruct G'); cbn [flat_map fsev fid app count_occ]; try lia.
  destruct (Nat.eqb_spec s sev) as [Q|N], (Nat.eq_dec sev s) as [E|E]; try congruence; lia.
Qed.
Lemma id_msgs fs : Forall no_set fs -> forall s, id_num s fs = Z.of_nat (count_occ string_dec (fids fs) s).
Proof.
  intros F s. induction fs as [|f fs IH] using rev_ind; [reflexivity|]. apply Forall_app in F as [F G]. inversion G as [|? ? G' _]; subst.
  rewrite id_snoc, flat_map_app, count_occ_app. rewrite (IH F). destruct f; try (now destruct G'); cbn [flat_map fsev fid app count_occ]; try lia.
  destruct (String.eqb_spec s id) as [Q|N], (string_dec id s) as [E|E]; try congruence; lia.
Qed.
Lemma lens fs : List.length (fsevs fs) = messages fs /\ List.length (fids fs) = messages fs.
Proof. unfold messages. induction fs as [|f fs [I1 I2]]; [now split|]. destruct f; cbn; auto. Qed.
Theorem C207_totals : forall fs l, tells fs true l -> Forall no_set fs ->
  sev_total l = Z.of_nat (messages fs) /\ id_total l = Z.of_nat (messages fs).
Proof.
  intros fs l (sv & iv & F1 & F2 & ->) NS. rewrite !sev_total_app, !id_total_app.
  assert (A1 : sev_total (map (fun s => LSev s (PVal (sev_num s fs))) sv) = Z.of_nat (messages fs)).
  { rewrite <- (proj1 (lens fs)). rewrite <- (sum_occ Nat.eq_dec sv (firsts_nodup _ _ F1) (fsevs fs)).
    - clear -NS. induction sv as [|x sv IH]; [reflexivity|]. cbn [map fold_right]. rewrite <- IH, <- (sev_msgs fs NS). reflexivity.
    - intros x X. apply (firsts_in _ _ F1). apply in_or_app. right. apply in_flat_map in X as (f & I & X). apply in_flat_map. exists f. split; auto. destruct f; try destruct X as [X|[]]; try destruct X. now left. }
  assert (A2 : id_total (map (fun i => LId i (PVal (id_num i fs))) iv) = Z.of_nat (messages fs)).
  { rewrite <- (proj2 (lens fs)). rewrite <- (sum_occ string_dec iv (firsts_nodup _ _ F2) (fids fs)).
    - clear -NS. induction iv as [|x iv IH]; [reflexivity|]. cbn [map fold_right]. rewrite <- IH, <- (id_msgs fs NS). reflexivity.
    - intros x X. apply (firsts_in _ _ F2). apply in_flat_map in X as (f & I & X). apply in_flat_map. exists f. split; auto. destruct f; try destruct X as [X|[]]; try destruct X. now left. }
  assert (B1 : sev_total (map (fun i => LId i (PVal (id_num i fs))) iv) = 0) by (clear; induction iv; auto).
  assert (B2 : id_total (map (fun s => LSev s (PVal (sev_num s fs))) sv) = 0) by (clear; induction sv; auto).
  rewrite A1, A2, B1, B2. destruct (max_num fs =? 0); [|destruct (max_num fs <=? quit_num 0 0 fs)]; cbn; lia.
Qed.
Print Assumptions C207_totals.

(** Counts asked for one by one, and a printout of the server, say the same. *)
Theorem C207_query : forall ops sev id,
  snd (step (fst (run ops)) (SevCount sev)) = [OSevCount (PVal (sev_num sev (facts false ops)))] /\
  snd (step (fst (run ops)) (IdCount id)) = [OIdCount (PVal (id_num id (facts false ops)))] /\
  exists sv iv, firsts (sev_names (facts false ops)) sv /\ firsts (id_names (facts false ops)) iv /\
    snd (step (fst (run ops)) Print) =
      [OPrint (map (fun s => (PKey s, PVal (sev_num s (facts false ops)))) sv) (map (fun i => (PKey i, PVal (id_num i (facts false ops)))) iv)].
Proof.
  intros ops sev id. destruct (run_rel ops) as [[_ _ H3 H4] _]. cbn [step].
  rewrite (get_count_ok _ _ _ _ _ H3), (get_count_ok _ _ _ _ _ H4). split; [reflexivity|]. split; [reflexivity|].
  destruct (print_ok _ _ _ _ H3) as (q & _ & _ & E1). destruct (print_ok _ _ _ _ H4) as (q' & _ & _ & E1'). rewrite E1, E1'.
  do 2 eexists. split; [apply H3|]. split; [apply H4|]. reflexivity.
Qed.
Print Assumptions C207_query.

(** Asking for the summary is not neutral once a catcher exists: each summary is
    counted in the next one. *)
Theorem C207_twice_limit : exists l1 l2,
  snd (run [Report 2 "A" true true; Summary (Some (true, false)); Summary (Some (true, false))]) = [OSummary l1; OSummary l2] /\
  In (LSev 0 (PVal 1)) l1 /\ In (LSev 0 (PVal 2)) l2 /\ ~ In (LSev 0 (PVal 1)) l2.
Proof. do 2 eexists. split; [vm_compute; reflexivity|]. split; [cbn; auto 10|]. split; [cbn; auto 10|]. cbn. intuition discriminate. Qed.
Print Assumptions C207_twice_limit.

Example C207_example :
  snd (run [SetMax 2; Report 2 "A" true true; Report 1 "B" true false; Report 2 "A" true true; Summary None]) =
    [OSummary [LTitle; LReached; LQuit 2 2; LSevTitle; LSev 0 (PVal 0); LSev 1 (PVal 1); LSev 2 (PVal 2); LSev 3 (PVal 0);
       LIdTitle; LId "A" (PVal 2); LId "B" (PVal 1)]].
Proof. vm_compute. reflexivity. Qed.

(** C208. Over all calls no id and no severity is handed out twice, and only ones
    that were used. *)
Theorem C208_once : forall ops, exists di ds,
  given_ids (snd (run ops)) = map PKey di /\ NoDup di /\ incl di (id_names (facts false ops)) /\
  given_sevs (snd (run ops)) = map PKey ds /\ NoDup ds /\ incl ds (sev_names (facts false ops)).
Proof.
  intros ops. destruct (run_given ops) as [[(ds & E1 & N1 & I1 & _)] [(di & E2 & N2 & I2 & _)]]. destruct (run_rel ops) as [[_ _ H3 H4] _].
  assert (FN : forall A n (l : list A), incl (firstn n l) l).
  { intros A n l x X. rewrite <- (firstn_skipn n l). apply in_or_app. now left. }
  exists di, ds. repeat split; auto.
  - intros x X. apply I2, FN in X. apply (firsts_in _ _ (tr_keys _ _ _ _ H4)) in X. exact X.
  - intros x X. apply I1, FN in X. apply (firsts_in _ _ (tr_keys _ _ _ _ H3)) in X. exact X.
Qed.
Print Assumptions C208_once.

(** If the server is not printed, the calls up to and including the last one give
    every one, in the order of first use. *)
Theorem C208_all : forall ops, Forall not_print ops ->
  (exists d, firsts (id_names (facts false ops)) d /\ given_ids (snd (run (ops ++ [IdSet]))) = map PKey d) /\
  (exists d, firsts (sev_names (facts false ops)) d /\ given_sevs (snd (run (ops ++ [SevSet]))) = map PKey d).
Proof.
  intros ops F. destruct (run_rel ops) as [[_ _ H3 H4] _]. destruct (run_given ops) as [[(ds & E1 & N1 & I1 & Q1)] [(di & E2 & N2 & I2 & Q2)]].
  unfold run in *. rewrite !run_machine_app. destruct (run_machine step srv0 ops) as [s e]. cbn [fst snd run_machine step] in *.
  rewrite (take_ok _ _ _ _ H3), (take_ok _ _ _ _ H4). cbn [snd].
  specialize (Q1 F). specialize (Q2 F). split.
  - exists (d_keys (dct (ids s))). split; [apply H4|]. unfold given_ids in *. rewrite flat_map_app, E2, Q2. cbn [app flat_map]. rewrite !app_nil_r, <- map_app.
    now rewrite firstn_skipn.
  - exists (d_keys (dct (sevs s))). split; [apply H3|]. unfold given_sevs in *. rewrite flat_map_app, E1, Q1. cbn [app flat_map]. rewrite !app_nil_r, <- map_app.
    now rewrite firstn_skipn.
Qed.
Print Assumptions C208_all.

(** An id first used between a call and a printout is never handed out. *)
Theorem C208_print_limit :
  given_ids (snd (run [Report 0 "A" true false; IdSet; Report 0 "B" true false; Print; Report 0 "C" true false; IdSet; IdSet])) =
    [PKey "A"%string; PKey "C"%string].
Proof. vm_compute. reflexivity. Qed.
Print Assumptions C208_print_limit.

Example C208_example :
  snd (run [Report 0 "A" true false; Report 2 "B" true false; IdSet; Report 1 "A" true false; Report 0 "C" true false; IdSet; SevSet]) =
    [OIdSet [PKey "A"; PKey "B"]; OIdSet [PKey "C"]; OSevSet [PKey 0%nat; PKey 1%nat; PKey 2%nat; PKey 3%nat]]%string.
Proof. vm_compute. reflexivity. Qed.

(** C209. The text of a message tells all its parts. *)
Open Scope string_scope.
Lemma app_s_assoc (a b c : string) : (a ++ b) ++ c = a ++ (b ++ c).
Proof. induction a as [|x a IH]; cbn; auto. now rewrite IH. Qed.
Lemma has_app c a b : has c (a ++ b) <-> has c a \/ has c b.
Proof. induction a as [|x a IH]; cbn; [tauto|]. rewrite IH. tauto. Qed.
(** the first separator splits *)
Lemma split_at c : forall a a' x x', ~ has c a -> ~ has c a' -> a ++ String c x = a' ++ String c x' -> a = a' /\ x = x'.
Proof.
  induction a as [|y a IH]; intros [|y' a'] x x' N N' E; cbn in *.
  - now injection E as ->.
  - injection E as E1 E2. exfalso. apply N'. left. congruence.
  - injection E as E1 E2. exfalso. apply N. left. congruence.
  - injection E as -> E. destruct (IH a' x x') as [-> ->]; auto.
Qed.
Lemma app_s_inj_r b : forall a a' : string, a ++ b = a' ++ b -> a = a'.
Proof.
  assert (L : forall s t : string, String.length (s ++ t) = (String.length s + String.length t)%nat) by (induction s; intros t; cbn; auto).
  induction a as [|x a IH]; intros [|y a'] E; auto.
  - apply (f_equal String.length) in E. cbn in E. rewrite L in E. lia.
  - apply (f_equal String.length) in E. cbn in E. rewrite L in E. lia.
  - cbn in E. injection E as -> E. now rewrite (IH _ E).
Qed.
Lemma num_digits c n : has c (num n) -> In c (list_ascii_of_string "0123456789").
Proof.
  unfold num. induction (Nat.to_uint n) as [|d IH|d IH|d IH|d IH|d IH|d IH|d IH|d IH|d IH|d IH]; cbn [NilEmpty.string_of_uint has]; [tauto|..]; intros [<-|H]; auto; cbn; auto 12.
Qed.
Lemma num_inj a b : num a = num b -> a = b.
Proof.
  unfold num. intros E. apply (f_equal NilEmpty.uint_of_string) in E. rewrite !NilEmpty.usu in E. injection E as E.
  now apply DecimalNat.Unsigned.to_uint_inj.
Qed.
Lemma known_no_space s : (s < 4)%nat -> ~ has " " (ename s).
Proof. destruct s as [|[|[|[|s]]]]; [..|lia]; cbn; intuition discriminate. Qed.
Lemma known_inj s s' : (s < 4)%nat -> (s' < 4)%nat -> ename s = ename s' -> s = s'.
Proof. destruct s as [|[|[|[|s]]]], s' as [|[|[|[|s']]]]; try lia; cbn; intros; congruence. Qed.
Theorem C209_parts : forall term t t' x, separable t -> separable t' ->
  compose false term t = Some x -> compose false term t' = Some x ->
  t_sev t = t_sev t' /\ t_file t = t_file t' /\ (t_file t <> "" -> t_line t = t_line t') /\ t_time t = t_time t' /\
  t_name t = t_name t' /\ t_ctx t = t_ctx t' /\ t_id t = t_id t' /\ t_body t = t_body t'.
Proof.
  intros term t t' x [A1 [A2 A3] A4 [A5 A6] A7 A8] [B1 [B2 B3] B4 [B5 B6] B7 B8] E E'. rewrite <- E' in E. clear E'.
  unfold compose in E. injection E as E.
  destruct (split_at " " (ename (t_sev t)) (ename (t_sev t')) _ _ (known_no_space _ A1) (known_no_space _ B1) E) as [E1 E2].
  apply (known_inj _ _ A1 B1) in E1. clear E. rewrite <- E1 in E2.
  set (f := if string_dec (t_file t) "" then "" else t_file t ++ "(" ++ num (t_line t) ++ ") ") in *.
  set (f' := if string_dec (t_file t') "" then "" else t_file t' ++ "(" ++ num (t_line t') ++ ") ") in *.
  assert (D : forall n c, In c ["@"%char; "("%char] -> ~ has c (num n)).
  { intros n c I H. apply num_digits in H. cbn in H. destruct I as [<-|[<-|[]]]; intuition discriminate. }
  assert (F : ~ has "@" f /\ ~ has "@" f').
  { assert (FL : forall fi li, ~ has "@" fi -> ~ has "@" (if string_dec fi "" then "" else fi ++ "(" ++ num li ++ ") ")).
    { intros fi li H. destruct (string_dec fi ""); [cbn; auto|]. rewrite !has_app. intros [X|[X|[X|X]]]; auto.
      - cbn in X. intuition discriminate.
      - apply (D li "@"%char) in X; cbn; auto.
      - cbn in X. intuition discriminate. }
    split; now apply FL. }
  destruct F as [F F'].
  destruct (split_at "@" f f' _ _ F F' E2) as [Ef E3]. clear E2.
  injection E3 as E3. rewrite !app_s_assoc in E3. 
  assert (T : ~ has ":" (t_time t ++ "NS") /\ ~ has ":" (t_time t' ++ "NS")).
  { split; rewrite has_app; cbn; intuition discriminate. }
  destruct T as [T T'].
  rewrite <- !(app_s_assoc (t_time _)) in E3.
  destruct (split_at ":" _ _ _ _ T T' E3) as [Et E4]. clear E3. apply app_s_inj_r in Et. cbn [append] in E4. injection E4 as E4.
  set (c := if string_dec (t_ctx t) "" then "" else "@@" ++ t_ctx t) in *.
  set (c' := if string_dec (t_ctx t') "" then "" else "@@" ++ t_ctx t') in *.
  rewrite <- !(app_s_assoc (t_name _)) in E4.
  assert (N : ~ has " " (t_name t ++ c) /\ ~ has " " (t_name t' ++ c')).
  { assert (NL : forall na cx, ~ has " " na -> ~ has " " cx -> ~ has " " (na ++ (if string_dec cx "" then "" else "@@" ++ cx))).
    { intros na cx H H'. rewrite has_app. intros [X|X]; auto. destruct (string_dec cx ""); [exact X|]. rewrite has_app in X.
      destruct X as [X|X]; auto. cbn in X. intuition discriminate. }
    split; now apply NL. }
  destruct N as [N N']. destruct (split_at " " _ _ _ _ N N' E4) as [En E5]. clear E4. injection E5 as E5.
  destruct (split_at "]" _ _ _ _ A8 B8 E5) as [Ei E6]. clear E5. injection E6 as E6. apply app_s_inj_r in E6.
  split; [exact E1|].
  assert (Efile : t_file t = t_file t' /\ (t_file t <> "" -> t_line t = t_line t')).
  { unfold f, f' in Ef. destruct (string_dec (t_file t) "") as [Q|Q], (string_dec (t_file t') "") as [Q'|Q'].
    - split; [congruence|tauto].
    - destruct (t_file t'); [congruence|discriminate].
    - destruct (t_file t); [congruence|discriminate].
    - destruct (split_at "(" _ _ _ _ A3 B3 Ef) as [R1 R2]. split; auto. intros _.
      apply app_s_inj_r in R2. now apply num_inj. }
  destruct Efile as [Ef1 Ef2]. split; [exact Ef1|]. split; [exact Ef2|]. split; [exact Et|].
  assert (Ec : t_name t = t_name t' /\ t_ctx t = t_ctx t').
  { unfold c, c' in En. destruct (string_dec (t_ctx t) "") as [Q|Q], (string_dec (t_ctx t') "") as [Q'|Q'].
    - apply app_s_inj_r in En. split; congruence.
    - exfalso. assert (X : has "@" (t_name t' ++ ("@@" ++ t_ctx t'))) by (rewrite has_app; right; cbn; auto).
      rewrite <- En, has_app in X. cbn in X. tauto.
    - exfalso. assert (X : has "@" (t_name t ++ ("@@" ++ t_ctx t))) by (rewrite has_app; right; cbn; auto).
      rewrite En, has_app in X. cbn in X. tauto.
    - cbn [append] in En. destruct (split_at "@" _ _ _ _ A6 B6 En) as [R1 R2]. injection R2 as R2. now split. }
  destruct Ec as [Ec1 Ec2]. now repeat split.
Qed.
Print Assumptions C209_parts.

(** The severity alone can always be told, whatever the other parts contain. *)
Theorem C209_severity : forall term term' t t' x, (t_sev t < 4)%nat -> (t_sev t' < 4)%nat ->
  compose false term t = Some x -> compose false term' t' = Some x -> t_sev t = t_sev t'.
Proof.
  intros term term' t t' x A1 B1 E E'. rewrite <- E' in E. unfold compose in E. injection E as E.
  destruct (split_at " " (ename (t_sev t)) (ename (t_sev t')) _ _ (known_no_space _ A1) (known_no_space _ B1) E) as [E1 _].
  now apply known_inj.
Qed.
Print Assumptions C209_severity.

(** With show_verbosity on no text can be made: a message that is to be displayed or
    logged raises and is not counted, in any state; others are counted as usual. *)
Theorem C209_verbosity : forall ops sev id counted, fold_left verb_after ops false = true ->
  step (fst (run ops)) (Report sev id true counted) = (fst (run ops), [OExn]) /\
  snd (step (fst (run ops)) (Report sev id false counted)) = [] /\
  forall t term, compose true term t = None.
Proof.
  intros ops sev id counted V. destruct (run_rel ops) as [_ E]. rewrite V in E. cbn [step]. unfold report. rewrite E. now repeat split.
Qed.
Print Assumptions C209_verbosity.

(** The condition on ids is needed: two different messages, one text. *)
Theorem C209_id_limit :
  let t := Text 2 "a.py" 7 "10" "top.agent[0]" "" "A] B" "c" in
  let t' := Text 2 "a.py" 7 "10" "top.agent[0]" "" "A" "B] c" in
  compose false false t = compose false false t' /\ t_id t <> t_id t'.
Proof. split; [vm_compute; reflexivity|discriminate]. Qed.
Print Assumptions C209_id_limit.

Example C209_example :
  let t := Text 1 "a.py" 12 "10" "top.agent[0]" "ctx" "ID" "body [x]" in
  compose false true t = Some "UVM_WARNING a.py(12) @ 10NS: top.agent[0]@@ctx [ID] body [x] -UVM_WARNING" /\ separable t.
Proof. split; [vm_compute; reflexivity|]. constructor; cbn; try lia; intuition discriminate. Qed.
