(** Printing objects: the properties C132 to C134. *)
From Coq Require Import List Bool Arith Lia.
From Verif Require Import Prelude ScopeModel PrnModel PrnSpec PrnProofs.
Import ListNotations.
Local Open Scope nat_scope.

(** ** C132: the rows of an object *)
(** The printer between two prints. *)
Definition idle (s : pst) : Prop := m_stack (sc s) = [] /\ rows s = [] /\ cyc s = [].
Theorem C132_rows adjust heap limit N o s fuel :
  good heap N -> o < N -> N < fuel -> idle s ->
  exists s' rs, sprint adjust heap limit fuel o s = Some (s', rs) /\ idle s' /\ arrs s' = arrs s /\
    forall rs', obj_rows adjust heap limit [] [] (o_name (heap o)) (Some o) rs' <-> rs' = rs.
Proof.
  intros G L F (I1 & I2 & I3).
  destruct (object_ok adjust heap limit N G fuel []) with (n := o_name (heap o)) (o := Some o) (s := s) as (s1 & rs & E & O & A); auto.
  - constructor.
  - intros v [].
  - cbn. lia.
  - rewrite I1. constructor.
  - right. apply (G o L).
  - rewrite I1 in O. unfold sprint. rewrite E. exists (PSt (sc s1) (arrs s1) [] (cyc s1)), (rows s1). split; auto.
    pose proof (ad_rows _ _ _ A) as R. rewrite I2 in R. cbn in R. rewrite R. split; [|split].
    + repeat split; cbn; [rewrite (ad_stack _ _ _ A); auto|rewrite (ad_cyc _ _ _ A); auto].
    + apply (ad_arrs _ _ _ A).
    + intros rs'. split; [|intros ->; auto]. intros O'. symmetry. eapply rows_unique; eauto.
Qed.
Print Assumptions C132_rows.

Definition ch (l : list nat) : str := l.
Definition nm (k : nat) : str := [97 + k].
(** Component 0 with children 1 and 2 (not printed); object 3 refers back to 0. *)
Definition ex_heap (i : nat) : obj :=
  match i with
  | 0 => Obj (nm 0) (nm 0) true [1; 2] [Field (nm 5); Sub (nm 3) (Some 3)]
  | 1 => Obj (nm 1) (nm 1) true [] [Arr (nm 6) [Field [91; 48; 93]; Dots]]
  | 2 => Obj (nm 2) (nm 2) false [] []
  | _ => Obj (nm 3) (nm 3) true [] [Sub (nm 7) (Some 0); Sub (nm 8) None; Ref (nm 9) (Some 1)]
  end.
Example C132_example : good ex_heap 4 /\
  option_map snd (sprint (fun _ n => n) ex_heap None 5 0 pinit) =
  Some [Row 0 [97]; Row 1 [97; 46; 98]; Row 2 [97; 46; 98; 46; 103]; Row 3 [97; 46; 98; 46; 103; 46; 91; 48; 93]; Row 3 [46; 46; 46];
        Row 1 [97; 46; 102]; Row 1 [97; 46; 100]; Row 2 [97; 46; 100; 46; 104]; Row 2 [97; 46; 100; 46; 105]; Row 2 [97; 46; 100; 46; 106]].
Proof.
  split; [|reflexivity]. intros v L.
  assert (P : forall k, k < 20 -> plain (nm k)) by (intros k K; cbn; lia).
  destruct v as [|[|[|[|v]]]]; try lia; cbn [ex_heap o_name o_full o_kids o_items];
    (split; [apply P; lia|split; [discriminate|split]]); cbn; intros c H;
    repeat match goal with H : _ \/ _ |- _ => destruct H as [<-|H] | H : False |- _ => destruct H end; try lia; cbn;
    repeat split; auto; try lia; try (right; lia).
Qed.
(** Objects named like array elements end the array too early: after the first one the scope of
    the array is gone, after the second one that of the object, and the field that follows is
    printed at level 0. *)
Definition el_heap (i : nat) : obj :=
  match i with
  | 0 => Obj (nm 0) (nm 0) true [] [Arr (nm 1) [Sub [91; 48; 93] (Some 1); Sub [91; 49; 93] (Some 2)]; Field (nm 5)]
  | _ => Obj (nm 3) (nm 3) true [] []
  end.
Theorem C132_element_limit :
  option_map (fun p => map level (snd p)) (sprint (fun _ n => n) el_heap None 5 0 pinit) = Some [0; 1; 2; 1; 0].
Proof. reflexivity. Qed.
Print Assumptions C132_element_limit.

(** ** C133: the tree printer *)
Theorem C133_brackets l : starts l -> nested 0 (emit_tree l).
Proof. destruct l as [|r l]; [reflexivity|]. intros [A B]. rewrite <- A in *. now apply emit_nested. Qed.
Theorem C133_rows l : flat_map (fun t => match t with TName r => [r] | _ => [] end) (emit_tree l) = l.
Proof. apply emit_names. Qed.
(** A row's value is printed unless rows below it follow. *)
Theorem C133_values pre r post :
  In (TVal r) (emit_tree (pre ++ r :: post)) <->
  exists a b, pre ++ r :: post = a ++ r :: b /\ match b with [] => True | r2 :: _ => level r2 <= level r end.
Proof.
  generalize (pre ++ r :: post). intros l. induction l as [|x l IH].
  - cbn. split; [tauto|]. intros (a & b & H & _). destruct a; discriminate.
  - assert (C : forall k t, In (TVal r) (repeat TClose k ++ t) <-> In (TVal r) t).
    { intros k t. rewrite in_app_iff. split; auto. intros [H|H]; auto. apply repeat_spec in H. discriminate. }
    assert (T : (exists a b, x :: l = a ++ r :: b /\ match b with [] => True | r2 :: _ => level r2 <= level r end) <->
      (x = r /\ match l with [] => True | r2 :: _ => level r2 <= level r end) \/
      (exists a b, l = a ++ r :: b /\ match b with [] => True | r2 :: _ => level r2 <= level r end)).
    { split.
      - intros (a & b & E & H). destruct a as [|y a]; cbn in E; injection E as -> ->; eauto.
      - intros [[-> H]|(a & b & -> & H)]; [exists [], l|exists (x :: a), b]; auto. }
    rewrite T. rewrite <- IH. clear T IH. cbn [emit_tree]. destruct l as [|r2 l].
    + cbn [In]. rewrite C. cbn. split; [intros [H|[H|H]]; try discriminate; [left; split; [congruence|auto]|tauto]|].
      intros [[-> _]|[]]; auto.
    + destruct (Nat.ltb_spec (level x) (level r2)) as [E|E]; cbn [In].
      * split; [intros [H|[H|H]]; try discriminate; auto|]. intros [[-> H]|H]; auto. lia.
      * rewrite C. split; [intros [H|[H|H]]; try discriminate; auto; injection H as ->; auto|]. intros [[-> H]|H]; auto.
Qed.
(** For every object. *)
Corollary C133_object adjust heap limit N o s fuel s' rs :
  good heap N -> o < N -> N < fuel -> idle s -> sprint adjust heap limit fuel o s = Some (s', rs) -> nested 0 (emit_tree rs).
Proof.
  intros G L F I E. destruct (C132_rows adjust heap limit N o s fuel G L F I) as (s1 & r1 & E1 & _ & _ & O). rewrite E in E1. injection E1 as <- <-.
  apply C133_brackets. eapply rows_start. apply (O rs). reflexivity.
Qed.
Print Assumptions C133_brackets.
Print Assumptions C133_rows.
Print Assumptions C133_values.
Print Assumptions C133_object.
Example C133_example : let r k := Row k [] in
  emit_tree [r 0; r 1; r 2; r 0] = [TName (r 0); TOpen; TName (r 1); TOpen; TName (r 2); TVal (r 2); TClose; TClose; TName (r 0); TVal (r 0)] /\
  starts [r 0; r 1; r 2; r 0].
Proof. cbn. repeat split; auto. Qed.
(** With the element names of the limit above the brackets still match, but rows that skip a level
    would not. *)
Example C133_skip : ~ nested 0 (emit_tree [Row 0 []; Row 2 []]).
Proof. cbn. intros [_ [H _]]. discriminate. Qed.

(** ** C134: the table printer *)
Theorem C134_columns indent l :
  (forall r, In r l -> indent * c_level r + length (c_name r) <= 98 /\ length (c_type r) <= 98 /\ length (c_size r) <= 98) ->
  exists w t z v,
    (exists a b c d, header indent l = (s_name ++ blank a) ++ (s_type ++ blank b) ++ (s_size ++ blank c) ++ s_value ++ blank d /\
       4 + a = w + 1 /\ 4 + b = t + 1 /\ 4 + c = z + 1) /\
    dashes indent l = repeat 45 ((w + 1) + (t + 1) + (z + 1) + v) /\
    forall r, In r l ->
      exists first a b c d,
        line indent l r = first ++ (c_type r ++ blank b) ++ (c_size r ++ blank c) ++ c_val r ++ blank d /\
        first = blank (indent * c_level r - 1) ++ c_name r ++ blank (S a) /\
        length first = (if indent * c_level r =? 0 then w + 1 else w) /\
        length (c_type r ++ blank b) = t + 1 /\ 1 <= b /\ length (c_size r ++ blank c) = z + 1 /\ 1 <= c /\
        length (c_val r) <= v + 1.
Proof.
  intros H. exists (max_name indent l), (max_type l), (max_size l), (max_val l - 1).
  assert (Wn : 4 <= max_name indent l <= 98) by (split; [apply fold_max_ge|apply fold_max_le; [lia|apply H]]).
  assert (Wt : 4 <= max_type l <= 98) by (split; [apply fold_max_ge|apply fold_max_le; [lia|apply H]]).
  assert (Wz : 4 <= max_size l <= 98) by (split; [apply fold_max_ge|apply fold_max_le; [lia|apply H]]).
  assert (Wv : 5 <= max_val l) by apply fold_max_ge.
  assert (Wm : 100 <= widest indent l /\ max_val l <= widest indent l) by (unfold widest; lia).
  destruct Wm as [Wm Wm2]. split; [|split].
  - exists (max_name indent l - 3), (max_type l - 3), (max_size l - 3), (max_val l - 6).
    unfold header, blank. rewrite !slice1_repeat by lia. rewrite <- !app_assoc. repeat split; try lia.
    replace (max_name indent l - 2 - 1) with (max_name indent l - 3) by lia. replace (max_type l - 2 - 1) with (max_type l - 3) by lia.
    replace (max_size l - 2 - 1) with (max_size l - 3) by lia. replace (max_val l - 5 - 1) with (max_val l - 6) by lia. reflexivity.
  - unfold dashes. rewrite !slice1_repeat by lia. rewrite <- !repeat_app. f_equal. lia.
  - intros r I. destruct (H r I) as (Hn & Ht & Hz).
    assert (Mn : indent * c_level r + length (c_name r) <= max_name indent l) by exact (fold_max_in (fun r => indent * c_level r + length (c_name r)) l 4 r I).
    assert (Mt : length (c_type r) <= max_type l) by exact (fold_max_in (fun r => length (c_type r)) l 4 r I).
    assert (Mz : length (c_size r) <= max_size l) by exact (fold_max_in (fun r => length (c_size r)) l 4 r I).
    assert (Mv : length (c_val r) <= max_val l) by exact (fold_max_in (fun r => length (c_val r)) l 5 r I).
    exists (blank (indent * c_level r - 1) ++ c_name r ++ blank (S (max_name indent l - length (c_name r) - indent * c_level r))).
    exists (max_name indent l - length (c_name r) - indent * c_level r), (max_type l - length (c_type r) + 1), (max_size l - length (c_size r) + 1), (max_val l - length (c_val r) - 1).
    unfold blank. split; [|split; [reflexivity|]].
    + unfold line. rewrite (Nat.mul_comm (c_level r) indent). rewrite !slice1_repeat by lia. rewrite <- !app_assoc.
      replace (max_name indent l - length (c_name r) - indent * c_level r + 2 - 1) with (S (max_name indent l - length (c_name r) - indent * c_level r)) by lia.
      replace (max_type l - length (c_type r) + 2 - 1) with (max_type l - length (c_type r) + 1) by lia.
      replace (max_size l - length (c_size r) + 2 - 1) with (max_size l - length (c_size r) + 1) by lia. reflexivity.
    + rewrite !app_length, !repeat_length. destruct (Nat.eqb_spec (indent * c_level r) 0); lia.
Qed.
Print Assumptions C134_columns.
Definition ex_cells : list cells := [Cells 0 [97] [98; 98] [45] [64]; Cells 1 [99; 99; 99; 99; 99] [98] [51; 50] [48]; Cells 2 [100] [98] [56] [49]].
Example C134_example : map (fun s => length s) (emit_table 2 ex_cells) = [22; 23; 22; 22; 21; 21; 22] /\
  nth 3 (emit_table 2 ex_cells) [] = [97] ++ blank 7 ++ [98; 98] ++ blank 3 ++ [45] ++ blank 4 ++ [64] ++ blank 3 /\
  nth 4 (emit_table 2 ex_cells) [] = [32; 99; 99; 99; 99; 99; 32] ++ [98] ++ blank 4 ++ [51; 50] ++ blank 3 ++ [48] ++ blank 3.
Proof. vm_compute. repeat split. Qed.
(** With a name of a hundred characters a short name at level 0 gets a narrower column. *)
Theorem C134_wide_limit :
  let l := [Cells 0 (repeat 97 100) [98] [45] [64]; Cells 0 [99] [98] [45] [64]] in
  length (line 2 l (nth 0 l (Cells 0 [] [] [] []))) = S (length (line 2 l (nth 1 l (Cells 0 [] [] [] [])))).
Proof. vm_compute. reflexivity. Qed.
Print Assumptions C134_wide_limit.
