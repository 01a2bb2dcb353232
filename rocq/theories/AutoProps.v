(** Theorems about the visible resources and automatic configuration. *)
From Coq Require Import List Bool Arith ZArith Ascii String Lia Permutation Sorted.
From Verif Require Import Prelude SvModel SvSpec ResourceModel AutoModel AutoSpec AutoPool AutoProofs AutoProofs2 AutoProofs3.
Import ListNotations.
Local Open Scope nat_scope.

(** * C143 sort_by_precedence *)
(** Nothing is lost or invented. *)
Theorem C143_permutation : forall (R : Type) (prec : R -> Z) q, Permutation (sort_by_precedence prec q) q.
Proof. intros. apply sort_perm. Qed.
Print Assumptions C143_permutation.

(** Resources of the same precedence keep their order. *)
Theorem C143_stable : forall (R : Type) (prec : R -> Z) q k,
  filter (fun r => prec r =? k)%Z (sort_by_precedence prec q) = filter (fun r => prec r =? k)%Z q.
Proof. intros. apply sort_stable. Qed.
Print Assumptions C143_stable.

(** Different precedences are ordered by their first appearance, last appearing first: their
    values do not matter. *)
Theorem C143_order : forall (R : Type) (prec : R -> Z) l1 r1 l2, ~ In (prec r1) (map prec l1) ->
  let q := l1 ++ r1 :: l2 in
  exists a b, sort_by_precedence prec q = a ++ filter (fun r => prec r =? prec r1)%Z q ++ b /\
    (forall r, In r a <-> In r q /\ prec r <> prec r1 /\ ~ In (prec r) (map prec l1)) /\
    (forall r, In r b <-> In r q /\ In (prec r) (map prec l1)).
Proof. intros. now apply sort_order. Qed.
Print Assumptions C143_order.

(** The documented order, highest first, results when every precedence that appears anew is
    higher than those before. *)
Theorem C143_highest_first : forall (R : Type) (prec : R -> Z) q,
  (forall l1 r l2, q = l1 ++ r :: l2 -> ~ In (prec r) (map prec l1) -> forall x, In x l1 -> (prec x < prec r)%Z) ->
  StronglySorted (fun x y => (prec x >= prec y)%Z) (sort_by_precedence prec q).
Proof. intros. now apply sort_documented. Qed.
Print Assumptions C143_highest_first.

(** In general it does not. *)
Theorem C143_limit : sort_by_precedence (fun z => z) [1000; 500; 1000; 700]%Z = [700; 500; 1000; 1000]%Z.
Proof. reflexivity. Qed.
Print Assumptions C143_limit.

Example C143_example :
  sort_by_precedence snd [(1, 998); (2, 999); (3, 998); (4, 1000)]%Z = [(4, 1000); (2, 999); (1, 998); (3, 998)]%Z.
Proof. reflexivity. Qed.

(** * C144 lookup_scope *)
(** In every pool that can be reached, exactly the stored resources whose scope matches are found. *)
Theorem C144_visible : forall smatch s names path id, reach smatch s names ->
  In id (visible_ids smatch s names path) <->
  (exists n, In id (rtab s n)) /\ smatch (r_scope (ResourceModel.heap s id)) path = true.
Proof.
  intros smatch s names path id R. apply reach_wf in R. rewrite visible_in by exact R. split.
  - intros [A B]. eauto.
  - intros [[n A] B]. destruct R as (_ & T & _). destruct (T _ _ A) as (E & _). rewrite E. auto.
Qed.
Print Assumptions C144_visible.

(** Names are searched in the reverse order of their first use, the resources of a name in the
    order in which a lookup of the name finds them. *)
Theorem C144_order : forall smatch s l1 n l2 path, reach smatch s (l1 ++ n :: l2) ->
  exists a b, visible_ids smatch s (l1 ++ n :: l2) path = a ++ lookup_name smatch s path n ++ b /\
    (forall id, In id a -> In (r_name (ResourceModel.heap s id)) l2) /\
    (forall id, In id b -> In (r_name (ResourceModel.heap s id)) l1).
Proof.
  intros smatch s l1 n l2 path R. apply reach_wf in R. destruct R as (_ & T & _).
  exists (visible_ids smatch s l2 path), (visible_ids smatch s l1 path). split; [apply visible_split|].
  assert (K : forall l id, In id (visible_ids smatch s l path) -> In (r_name (ResourceModel.heap s id)) l).
  { intros l id I. unfold visible_ids in I. rewrite lookup_scope_eq in I. apply in_flat_map in I. destruct I as (q & I & F).
    apply in_rev in I. apply in_map_iff in I. destruct I as (m & <- & Im). apply filter_In in F. destruct F as [F _].
    now rewrite (proj1 (T _ _ F)). }
  split; intros id; apply K.
Qed.
Print Assumptions C144_order.

(** A name looked up is found among the names searched. *)
Theorem C144_names : forall smatch s names n, reach smatch s names -> rtab s n <> [] -> In n names.
Proof.
  intros smatch s names n R N. apply reach_wf in R. destruct R as (_ & T & _). destruct (rtab s n) as [|id q] eqn:E; [congruence|].
  apply (T n id). rewrite E. cbn. auto.
Qed.
Print Assumptions C144_names.

Definition ex_match (pattern path : nat) : bool := Nat.eqb pattern 0 || Nat.eqb pattern path.
(** Two names; for the first, two settings with different patterns and one for another path. *)
Definition ex_ops : list rop :=
  [ConfigSet 0 0 false 0 7 1; ConfigSet 0 0 false 5 8 2; ConfigSet 0 0 false 5 7 3; ConfigSet 0 0 false 6 7 4]%Z.
Fixpoint ex_names (s : pool) (names : list nat) (ops : list rop) : pool * list nat :=
  match ops with
  | [] => (s, names)
  | o :: ops => ex_names (rstep ex_match s o) (add_name names (op_name s o)) ops
  end.
Lemma ex_reach ops : forall s names, reach ex_match s names -> Forall (fun o => match o with PoolSet _ _ => False | _ => True end) ops ->
  let (s', n') := ex_names s names ops in reach ex_match s' n'.
Proof.
  induction ops as [|o ops IH]; intros s names R F; cbn [ex_names]; [exact R|]. apply Forall_cons_iff in F. destruct F as [Fo F].
  apply IH; auto. constructor; auto. destruct o; cbn; tauto.
Qed.
Example C144_example : let (s, names) := ex_names pool0 [] ex_ops in
  reach ex_match s names /\ names = [7; 8] /\ visible_ids ex_match s names 5 = [1; 2; 0].
Proof.
  pose proof (ex_reach ex_ops pool0 [] (reach0 _)) as H. cbn in *. repeat split. apply H. repeat constructor.
Qed.

(** * C145 Automatic configuration *)
(** A writable field gets the value of the last resource, in the sorted order, that concerns it:
    one with the name of a declared field of the component that occurs in the field's name. *)
Theorem C145_value : forall fuel h c vis h' f,
  Forall word (map fst (decls (h c))) -> Forall (fun r => Forall plain (rname r)) vis ->
  apply_config_settings fuel h c vis = Ok h' -> In (f, false) (decls (h c)) ->
  (exists r, last_such (concerns (decls (h c)) f) (sort_by_precedence rprec vis) r /\ attr (h' c) f = Some (rval r)) \/
  ((forall r, In r vis -> ~ concerns (decls (h c)) f r) /\ attr (h' c) f = attr (h c) f).
Proof.
  intros fuel h c vis h' f W P E I. unfold apply_config_settings in E. destruct (has_fields h c) eqn:HF; [|discriminate].
  remember (decls (h c)) as ds eqn:D. destruct ds as [|d0 ds0]; [contradiction|].
  destruct (fold_res _ _ _) as [[h1 j1]| |] eqn:EF; try discriminate. injection E as ->.
  assert (R : ready (d0 :: ds0) c h).
  { split; auto. unfold has_fields in HF. rewrite <- D in HF. rewrite forallb_forall in HF. intros d Id. specialize (HF d Id). now destruct (attr (h c) (fst d)). }
  assert (P' : Forall (fun r => Forall plain (rname r)) (sort_by_precedence rprec vis)).
  { apply Forall_forall. intros r Ir. rewrite Forall_forall in P. apply P. eapply Permutation_in; [apply sort_perm|exact Ir]. }
  destruct (all_effect (d0 :: ds0) c W fuel f _ I P' h 0 h' j1 R EF) as [K|[K V]]; auto. right. split; auto.
  intros r Ir. apply K. eapply Permutation_in; [apply Permutation_sym, sort_perm|exact Ir].
Qed.
Print Assumptions C145_value.

(** A single resource that concerns a field gives it its value. *)
Theorem C145_single : forall fuel h c l1 r l2 h' f,
  Forall word (map fst (decls (h c))) -> Forall (fun r => Forall plain (rname r)) (l1 ++ r :: l2) ->
  apply_config_settings fuel h c (l1 ++ r :: l2) = Ok h' -> In (f, false) (decls (h c)) ->
  rname r = f -> assignable (rval r) -> (forall x, In x (l1 ++ l2) -> ~ concerns (decls (h c)) f x) ->
  attr (h' c) f = Some (rval r).
Proof.
  intros fuel h c l1 r l2 h' f W P E I N A U.
  assert (C : concerns (decls (h c)) f r).
  { rewrite <- N. split; [left; rewrite N; now apply (in_map fst) in I|]. split; auto. exists [], []. now rewrite app_nil_r. }
  destruct (C145_value _ _ _ _ _ _ W P E I) as [(x & (m1 & m2 & S & Cx & _) & V)|[K _]].
  - assert (Ix : In x (l1 ++ r :: l2)).
    { eapply Permutation_in; [apply sort_perm|]. rewrite S. apply in_app_iff. cbn. eauto. }
    apply in_app_iff in Ix. cbn in Ix. destruct Ix as [Ix|[->|Ix]]; auto; elim (U x); auto; apply in_app_iff; auto.
  - elim (K r); auto. apply in_app_iff. cbn. auto.
Qed.
Print Assumptions C145_single.

(** No other attribute of the component changes: not the read-only fields, not those that are
    not declared. *)
Theorem C145_rest : forall fuel h c vis h' f,
  Forall word (map fst (decls (h c))) -> Forall (fun r => Forall plain (rname r)) vis ->
  apply_config_settings fuel h c vis = Ok h' -> ~ In (f, false) (decls (h c)) -> attr (h' c) f = attr (h c) f.
Proof.
  intros fuel h c vis h' f W P E I. unfold apply_config_settings in E. destruct (has_fields h c) eqn:HF; [|discriminate].
  remember (decls (h c)) as ds eqn:D. destruct ds as [|d0 ds0]; [now injection E as ->|].
  destruct (fold_res _ _ _) as [[h1 j1]| |] eqn:EF; try discriminate. injection E as ->.
  assert (R : ready (d0 :: ds0) c h).
  { split; auto. unfold has_fields in HF. rewrite <- D in HF. rewrite forallb_forall in HF. intros d Id. specialize (HF d Id). now destruct (attr (h c) (fst d)). }
  assert (P' : Forall (fun r => Forall plain (rname r)) (sort_by_precedence rprec vis)).
  { apply Forall_forall. intros r Ir. rewrite Forall_forall in P. apply P. eapply Permutation_in; [apply sort_perm|exact Ir]. }
  exact (all_rest (d0 :: ds0) c W fuel f _ I P' h 0 h' j1 R EF).
Qed.
Print Assumptions C145_rest.

(** Without type proxies and object settings with "." or "*", it does not raise and no other
    object changes. *)
Theorem C145_total : forall fuel h c vis,
  Forall word (map fst (decls (h c))) -> Forall (fun r => Forall plain (rname r)) vis ->
  (forall d, In d (decls (h c)) -> attr (h c) (fst d) <> None) ->
  (forall r, In r vis -> match rval r with VType _ => False | VObj _ => wide (rname r) = false | _ => True end) ->
  exists h', apply_config_settings (S fuel) h c vis = Ok h' /\ forall o, o <> c -> h' o = h o.
Proof.
  intros fuel h c vis W P A T. unfold apply_config_settings.
  assert (HF : has_fields h c = true).
  { unfold has_fields. apply forallb_forall. intros d I. specialize (A d I). now destruct (attr (h c) (fst d)). }
  rewrite HF. remember (decls (h c)) as ds eqn:D. destruct ds as [|d0 ds0]; [exists h; auto|].
  assert (R : ready (d0 :: ds0) c h) by (split; auto).
  assert (G : forall r, In r (sort_by_precedence rprec vis) -> In r vis) by (intros r; apply Permutation_in, sort_perm).
  assert (P' : Forall (fun r => Forall plain (rname r)) (sort_by_precedence rprec vis)).
  { apply Forall_forall. intros r Ir. rewrite Forall_forall in P. auto. }
  assert (T' : Forall (fun r => match rval r with VType _ => False | VObj _ => wide (rname r) = false | _ => True end)
    (sort_by_precedence rprec vis)) by (apply Forall_forall; intros r Ir; exact (T r (G r Ir))).
  destruct (all_total (d0 :: ds0) c W fuel _ P' T' h 0 R) as ([h1 j1] & E).
  rewrite E. exists h1. split; auto. intros o No. eapply (all_others (d0 :: ds0) c W); eauto.
  apply Forall_forall. intros r Ir. specialize (T r (G r Ir)). destruct (rval r); auto; right; discriminate.
Qed.
Print Assumptions C145_total.

Definition st (s : string) : str := list_ascii_of_string s.
Definition comp (ds : list (str * bool)) (vs : list (str * value)) : object :=
  Object ds (fun f => match find (fun p => str_eqb (fst p) f) vs with Some p => Some (snd p) | None => None end).
Definition one_comp : heap := fun _ =>
  comp [(st "addr", false); (st "a", false); (st "mode", true); (st "name_s", false)]
       [(st "addr", VInt 0); (st "a", VInt 0); (st "mode", VInt 3); (st "name_s", VText (st "x"))].
Ltac words := repeat constructor; try discriminate; unfold plain; cbn; intuition discriminate.
Definition shown (r : res heap) (c : nat) (fs : list string) : option (list (option value)) :=
  match r with Ok h => Some (map (fun f => attr (h c) (st f)) fs) | _ => None end.
Example C145_example :
  Forall word (map fst (decls (one_comp 0))) /\
  shown (apply_config_settings 1 one_comp 0
     [Rsrc (st "addr") 1000 (VInt 8); Rsrc (st "mode") 1000 (VInt 9); Rsrc (st "other") 1000 (VInt 1); Rsrc (st "name_s") 1000 (VText (st "y"))])
     0 ["addr"; "a"; "mode"; "name_s"]%string = Some [Some (VInt 8); Some (VInt 0); Some (VInt 3); Some (VText (st "y"))].
Proof. split; [words|vm_compute; reflexivity]. Qed.

(** The name need not be that of the field: a setting for "a" also overwrites "addr" and "name_s". *)
Theorem C145_substring_limit :
  shown (apply_config_settings 1 one_comp 0 [Rsrc (st "a") 1000 (VInt 5)]) 0 ["addr"; "a"; "mode"; "name_s"]%string =
  Some [Some (VInt 5); Some (VInt 5); Some (VInt 3); Some (VInt 5)].
Proof. vm_compute. reflexivity. Qed.
Print Assumptions C145_substring_limit.

(** * C146 Automatic configuration against UVMConfigDb.get *)
(** When a field's name has one visible resource, and no other visible name of a declared field occurs in
    it, the field gets what UVMConfigDb.get returns for it. *)
Theorem C146_agree : forall smatch nm vk s names path n fuel h c h' z,
  reach smatch s names -> (forall a b, nm a = nm b -> a = b) ->
  Forall word (map fst (decls (h c))) -> (forall a, Forall plain (nm a)) ->
  In (nm n, false) (decls (h c)) ->
  (exists id, lookup_name smatch s path n = [id]) ->
  (forall m, m <> n -> lookup_name smatch s path m <> [] ->
     ~ ((In (nm m) (map fst (decls (h c))) \/ nm m = recording_detail) /\ part_of (nm m) (nm n))) ->
  apply_config_settings fuel h c (visible smatch nm vk s names path) = Ok h' ->
  config_get smatch s path n = Some (Some z) -> assignable (vk z) ->
  attr (h' c) (nm n) = Some (vk z).
Proof.
  intros smatch nm vk s names path n fuel h c h' z R INJ W PL If (id & L) U E G A.
  assert (IN : In n names).
  { eapply C144_names; eauto. intros EN. unfold lookup_name in L. rewrite EN in L. discriminate. }
  destruct (in_split _ _ IN) as (l1 & l2 & EN). subst names. pose proof (reach_wf _ _ _ R) as (ND & T & _).
  assert (EV : visible smatch nm vk s (l1 ++ n :: l2) path =
     map (as_rsrc nm vk s) (visible_ids smatch s l2 path) ++ as_rsrc nm vk s id :: map (as_rsrc nm vk s) (visible_ids smatch s l1 path)).
  { unfold visible. rewrite visible_split, L, !map_app. reflexivity. }
  assert (Rid : r_name (ResourceModel.heap s id) = n).
  { assert (I : In id (lookup_name smatch s path n)) by (rewrite L; cbn; auto). unfold lookup_name in I. apply filter_In in I. now apply (T n id). }
  assert (Vid : rval (as_rsrc nm vk s id) = vk z).
  { unfold config_get in G. rewrite L in G. cbn in G. unfold read in G. injection G as G. unfold as_rsrc. cbn. now rewrite G. }
  assert (K : forall l x, (forall m, In m l -> In m (l1 ++ n :: l2) /\ m <> n) -> In x (map (as_rsrc nm vk s) (visible_ids smatch s l path)) -> ~ concerns (decls (h c)) (nm n) x).
  { intros l x SUB I. apply in_map_iff in I. destruct I as (i & <- & I). unfold visible_ids in I. rewrite lookup_scope_eq in I.
    apply in_flat_map in I. destruct I as (q & Iq & Fi). apply in_rev in Iq. apply in_map_iff in Iq. destruct Iq as (m & <- & Im).
    destruct (SUB m Im) as [_ NE]. pose proof Fi as Fi2. apply filter_In in Fi2. destruct Fi2 as [Fi1 _]. destruct (T _ _ Fi1) as (Em & _).
    intros (C1 & C2 & _). cbn [as_rsrc rname] in C1, C2. rewrite Em in C1, C2. apply (U m NE); auto.
    unfold lookup_name. intros Z. rewrite Z in Fi. contradiction. }
  assert (N1 : forall m, In m l1 -> In m (l1 ++ n :: l2) /\ m <> n).
  { intros m I. split; [apply in_app_iff; auto|]. intros ->. apply NoDup_remove_2 in ND. apply ND. apply in_app_iff. auto. }
  assert (N2 : forall m, In m l2 -> In m (l1 ++ n :: l2) /\ m <> n).
  { intros m I. split; [apply in_app_iff; cbn; auto|]. intros ->. apply NoDup_remove_2 in ND. apply ND. apply in_app_iff. auto. }
  rewrite EV in E. rewrite <- Vid. eapply C145_single; eauto.
  - rewrite <- EV. apply Forall_forall. intros x I. unfold visible in I. apply in_map_iff in I. destruct I as (i & <- & _). cbn. auto.
  - cbn. now rewrite Rid.
  - now rewrite Vid.
  - intros x I. apply in_app_iff in I. destruct I as [I|I]; [apply (K l2 x N2 I)|apply (K l1 x N1 I)].
Qed.
Print Assumptions C146_agree.

Definition ex_nm (n : nat) : str := if Nat.eqb n 7 then st "addr" else if Nat.eqb n 8 then st "mask" else "z"%char :: repeat "z"%char n.
Lemma ex_nm_inj a b : ex_nm a = ex_nm b -> a = b.
Proof.
  unfold ex_nm. destruct (Nat.eqb_spec a 7), (Nat.eqb_spec b 7), (Nat.eqb_spec a 8), (Nat.eqb_spec b 8); subst; try lia; try discriminate; auto.
  intros E. injection E as E. apply (f_equal (@List.length _)) in E. now rewrite !repeat_length in E.
Qed.
Lemma ex_nm_plain a : Forall plain (ex_nm a).
Proof.
  unfold ex_nm. destruct (Nat.eqb a 7); [words|]. destruct (Nat.eqb a 8); [words|]. constructor; [unfold plain; cbn; intuition discriminate|].
  apply Forall_forall. intros c I. apply repeat_spec in I. subst. unfold plain. cbn. intuition discriminate.
Qed.
Definition two_fields : heap := fun _ => comp [(st "addr", false); (st "mask", false)] [(st "addr", VInt 0); (st "mask", VInt 0)].
(** One visible setting for each field. *)
Definition ops_one : list rop := [ConfigSet 0 0 false 0 7 1; ConfigSet 0 0 false 5 8 2; ConfigSet 0 0 false 6 7 4]%Z.
Example C146_example : let (s, names) := ex_names pool0 [] ops_one in
  reach ex_match s names /\ lookup_name ex_match s 5 7 = [0] /\ config_get ex_match s 5 7 = Some (Some 1%Z) /\
  shown (apply_config_settings 1 two_fields 0 (visible ex_match ex_nm VInt s names 5)) 0 ["addr"; "mask"]%string =
  Some [Some (VInt 1); Some (VInt 2)].
Proof.
  pose proof (ex_reach ops_one pool0 [] (reach0 _)) as H. vm_compute in H. cbn [ex_names ops_one].
  repeat split; try (vm_compute; reflexivity). vm_compute. apply H. repeat constructor.
Qed.

(** Two settings of the same field: UVMConfigDb.get returns the newer one, automatic configuration takes
    the older one. *)
Definition ops_two : list rop := [ConfigSet 0 0 false 0 7 1; ConfigSet 0 0 false 5 7 2]%Z.
Theorem C146_older_limit : let (s, names) := ex_names pool0 [] ops_two in
  reach ex_match s names /\ config_get ex_match s 5 7 = Some (Some 2%Z) /\
  shown (apply_config_settings 1 two_fields 0 (visible ex_match ex_nm VInt s names 5)) 0 ["addr"]%string = Some [Some (VInt 1)].
Proof.
  pose proof (ex_reach ops_two pool0 [] (reach0 _)) as H. vm_compute in H. cbn [ex_names ops_two].
  repeat split; try (vm_compute; reflexivity). vm_compute. apply H. repeat constructor.
Qed.
Print Assumptions C146_older_limit.

(** Settings made while building, by a test (depth 1) and then by an environment below it (depth 2):
    UVMConfigDb.get returns the test's, automatic configuration takes the environment's. *)
Definition ops_build : list rop := [ConfigSet 1 1 true 0 7 1; ConfigSet 2 2 true 5 7 2]%Z.
Theorem C146_lower_limit : let (s, names) := ex_names pool0 [] ops_build in
  reach ex_match s names /\ config_get ex_match s 5 7 = Some (Some 1%Z) /\
  shown (apply_config_settings 1 two_fields 0 (visible ex_match ex_nm VInt s names 5)) 0 ["addr"]%string = Some [Some (VInt 2)].
Proof.
  pose proof (ex_reach ops_build pool0 [] (reach0 _)) as H. vm_compute in H. cbn [ex_names ops_build].
  repeat split; try (vm_compute; reflexivity). vm_compute. apply H. repeat constructor.
Qed.
Print Assumptions C146_lower_limit.

(** * C147 Settings of fields of objects *)
(** set_object_local for "a.b" sets the field b of the object in the field a. *)
Theorem C147_sets : forall fuel h c a b o v h',
  Forall word (map fst (decls (h c))) -> In (a, false) (decls (h c)) ->
  attr (h c) a = Some (VObj o) -> o <> c -> In (b, false) (decls (h o)) -> word b ->
  set_object_local fuel h c (a ++ "."%char :: b) v = Ok h' -> attr (h' o) b = Some v.
Proof.
  intros fuel h c a b o v h' W Ia Aa No Ib [Nb Wb] E. rewrite Forall_forall in W.
  apply (nested_sets fuel h c a b o v h'); auto.
  - intros d I. apply (W (fst d)). now apply (in_map fst).
  - apply (W a). now apply (in_map fst) in Ia.
Qed.
Print Assumptions C147_sets.

(** Whatever changes is a writable field, gets the value, and is called b or has a name starting with b,
    in an object reached by a path that ends in a. *)
Theorem C147_only : forall fuel h c a b v h' o f,
  (forall o d, In d (decls (h o)) -> word (fst d)) -> word a -> word b ->
  set_object_local fuel h c (a ++ "."%char :: b) v = Ok h' -> attr (h' o) f <> attr (h o) f ->
  attr (h' o) f = Some v /\ In (f, false) (decls (h o)) /\
  exists p x y, path_to h v c p o /\ p = x ++ a /\ f = b ++ y.
Proof.
  intros fuel h c a b v h' o f W [Na Wa] [Nb Wb] E C.
  assert (L : literal (path2 a b)) by now apply path2_lit.
  assert (MX : mixed h v h) by (split; auto).
  destruct (nested_only h c (path2 a b) v fuel [] h c [] h' MX (path_here _ _ _) E (or_introl eq_refl)) as [[_ MX2] K].
  destruct (K o f C) as (I & p & PT & Hp & M). split; [destruct (MX2 o f); congruence|]. split; auto.
  assert (Wf : word f) by apply (W o (f, false) I).
  assert (Nf : ~ In "."%char f). { intros D. destruct Wf as [_ Wf]. rewrite Forall_forall in Wf. destruct (Wf _ D) as [_ N]. apply N. cbn. auto. }
  apply matches_lit in M; auto. destruct p as [|p0 p].
  - cbn in M. elim Nf. eapply part_in; eauto. apply in_app_iff. cbn. auto.
  - destruct Hp as [Hp|Hp]; [discriminate|]. destruct (part_nested a b (p0 :: p) f) as (x & y & E1 & E2); auto.
    { intros PP. apply (proj2 (matches_lit _ _ L)) in PP. congruence. }
    exists (p0 :: p), x, y. auto.
Qed.
Print Assumptions C147_only.

(** It raises when a writable field of the component holds an int or a string. *)
Theorem C147_raises_limit : forall fuel h c n v f a,
  In (f, false) (decls (h c)) -> wide n = true -> matches n f = false ->
  attr (h c) f = Some a -> a <> VNone -> (forall o, a <> VObj o) -> forall h', set_object_local fuel h c n v <> Ok h'.
Proof. intros. eapply (nested_raises fuel h c n v (f, false)); eauto. Qed.
Print Assumptions C147_raises_limit.

Definition two_objects (n : value) : heap := fun o =>
  if Nat.eqb o 0 then comp [(st "cfg", false); (st "aux", false)] [(st "cfg", VObj 1); (st "aux", VNone)]
  else comp [(st "drv", false); (st "drv_b", false); (st "drv_ro", true); (st "n", false)]
            [(st "drv", VNone); (st "drv_b", VNone); (st "drv_ro", VNone); (st "n", n)].
Example C147_example :
  shown (set_object_local 3 (two_objects VNone) 0 (st "cfg.drv") (VObj 9)) 1 ["drv"; "drv_b"; "drv_ro"; "n"]%string =
  Some [Some (VObj 9); Some (VObj 9); Some VNone; Some VNone] /\
  shown (set_object_local 3 (two_objects VNone) 0 (st "cfg.drv") (VObj 9)) 0 ["cfg"; "aux"]%string = Some [Some (VObj 1); Some VNone].
Proof. split; vm_compute; reflexivity. Qed.
(** An int in another field of the object has the same effect as in the component. *)
Example C147_inner_limit : set_object_local 3 (two_objects (VInt 1)) 0 (st "cfg.drv") (VObj 9) = Exn.
Proof. vm_compute. reflexivity. Qed.

(** * C148 Nested settings in automatic configuration *)
(** A setting whose name has a "." or a "[" is ignored after a longer plain name, whatever that
    name is. *)
Theorem C148_ignored_limit : forall fuel c fields l1 r r0 h h1 j1,
  Forall word fields -> has_sep (rname r) -> In r0 l1 -> ~ has_sep (rname r0) -> to_sep (rname r) < List.length (rname r0) ->
  fold_res (apply_one fuel c fields) l1 (h, 0) = Ok (h1, j1) ->
  exists j2, apply_one fuel c fields (h1, j1) r = Ok (h1, j2).
Proof.
  intros fuel c fields l1 r r0 h h1 j1 W H I N L E. destruct (all_j _ _ _ _ _ _ _ _ E) as [_ A].
  eexists. apply late_ignored; auto. specialize (A r0 I N). lia.
Qed.
Print Assumptions C148_ignored_limit.

(** It is applied if nothing before it reached past its first separator, in particular if it comes
    first. *)
Theorem C148_first : forall fuel c fields h j a b v p,
  word a -> In a fields -> j <= List.length a ->
  fold_res (apply_one fuel c fields) [Rsrc (a ++ "."%char :: b) p (VObj v)] (h, j) =
  match set_object_local fuel h c (a ++ "."%char :: b) (VObj v) with
  | Ok h' => Ok (h', List.length a) | Exn => Exn | OutOfFuel => OutOfFuel
  end.
Proof.
  intros fuel c fields h j a b v p [Na Wa] I L.
  assert (HS : has_sep (a ++ "."%char :: b)) by apply path2_sep.
  assert (TS : to_sep (a ++ "."%char :: b) = List.length a).
  { pose proof (no_sep _ (word_no_sep _ Wa)) as NS. clear -NS. induction a as [|x a IH]; cbn; auto. rewrite (NS x) by (cbn; auto).
    f_equal. apply IH. intros; apply NS; cbn; auto. }
  cbn [fold_res]. unfold apply_one. cbn [fst snd rname rval]. rewrite search_first by (auto; lia). rewrite TS, firstn_app, Nat.sub_diag, firstn_all.
  cbn [firstn]. rewrite app_nil_r. rewrite (proj2 (existsb_str a fields) I). cbn [negb andb].
  assert (AD : advance j (a ++ "."%char :: b) = List.length a).
  { unfold advance. rewrite skipn_app. replace (j - List.length a) with 0 by lia. cbn [skipn].
    pose proof (no_sep _ (word_no_sep _ Wa)) as NS.
    assert (K : forall t, (forall x, In x t -> is_sep x = false) -> to_sep (t ++ "."%char :: b) = List.length t).
    { induction t as [|x t IH]; intros Ht; cbn; auto. rewrite (Ht x) by (cbn; auto). f_equal. apply IH. intros; apply Ht; cbn; auto. }
    rewrite K by (intros x Ix; apply NS; eapply in_skipn; eauto). rewrite skipn_length. lia. }
  rewrite AD. destruct (set_object_local fuel h c (a ++ "."%char :: b) (VObj v)); reflexivity.
Qed.
Print Assumptions C148_first.

(** Automatic configuration by the whole: the same two resources in the two orders. *)
Example C148_example :
  shown (apply_config_settings 3 (two_objects VNone) 0 [Rsrc (st "cfg.drv") 1000 (VObj 9); Rsrc (st "verbosity") 1000 (VInt 1)])
        1 ["drv"]%string = Some [Some (VObj 9)] /\
  shown (apply_config_settings 3 (two_objects VNone) 0 [Rsrc (st "verbosity") 1000 (VInt 1); Rsrc (st "cfg.drv") 1000 (VObj 9)])
        1 ["drv"]%string = Some [Some VNone].
Proof. split; vm_compute; reflexivity. Qed.
