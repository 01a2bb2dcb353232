(** Specification side of the printer theorems. *)
From Coq Require Import List Bool Arith.
From Verif Require Import Prelude ScopeModel PrnModel.
Import ListNotations.
Local Open Scope nat_scope.

(** A name that is not empty and does not start with a bracket. *)
Definition plain (n : str) : Prop := match n with [] => False | c :: _ => ~ In c [91; 40; 123] end.
(** The names joined by dots. *)
Fixpoint dotted (l : list str) : str :=
  match l with [] => [] | [a] => a | a :: l => a ++ 46 :: dotted l end.

Section Rows.
Context (adjust : nat -> str -> str) (heap : nat -> obj) (limit : option nat).
(** [p]: the names of the objects and arrays around, from the top; [seen]: the objects around. *)
Definition shown (p : list str) (n : str) : row := Row (length p) (adjust (length p) (dotted (p ++ [n]))).
Definition called (p : list str) (n : str) (o : option nat) : str :=
  match n, o with
  | _ :: _, _ => n
  | [], None => unnamed
  | [], Some v => match p with [] => o_full (heap v) | _ => o_name (heap v) end
  end.
Definition allowed (p : list str) : Prop := match limit with None => True | Some d => length p < d end.
Inductive obj_rows : list str -> list nat -> str -> option nat -> list row -> Prop :=
| or_null p seen n : obj_rows p seen n None [shown p (called p n None)]
| or_closed p seen n v : In v seen \/ ~ allowed p -> obj_rows p seen n (Some v) [shown p (called p n (Some v))]
| or_open p seen n v rk ri :
    ~ In v seen -> allowed p ->
    kids_rows (p ++ [match n with [] => o_name (heap v) | _ => n end]) (v :: seen) (o_kids (heap v)) rk ->
    items_rows (p ++ [match n with [] => o_name (heap v) | _ => n end]) (v :: seen) (o_items (heap v)) ri ->
    obj_rows p seen n (Some v) (shown p (called p n (Some v)) :: rk ++ ri)
with kids_rows : list str -> list nat -> list nat -> list row -> Prop :=
| kr_nil p seen : kids_rows p seen [] []
| kr_skip p seen c l r : o_enabled (heap c) = false -> kids_rows p seen l r -> kids_rows p seen (c :: l) r
| kr_cons p seen c l r rs : o_enabled (heap c) = true -> obj_rows p seen [] (Some c) r -> kids_rows p seen l rs ->
    kids_rows p seen (c :: l) (r ++ rs)
with items_rows : list str -> list nat -> list item -> list row -> Prop :=
| ir_nil p seen : items_rows p seen [] []
| ir_field p seen n l r : n <> [] -> items_rows p seen l r -> items_rows p seen (Field n :: l) (shown p n :: r)
| ir_noname p seen l r : items_rows p seen l r -> items_rows p seen (Field [] :: l) (Row (length p) (adjust (length p) []) :: r)
| ir_dots p seen l r : items_rows p seen l r -> items_rows p seen (Dots :: l) (Row (length p) (adjust (length p) dots) :: r)
| ir_arr p seen n es l re r : items_rows (p ++ [n]) seen es re -> items_rows p seen l r ->
    items_rows p seen (Arr n es :: l) (shown p n :: re ++ r)
| ir_sub p seen n o l ro r : obj_rows p seen n o ro -> items_rows p seen l r -> items_rows p seen (Sub n o :: l) (ro ++ r)
| ir_ref p seen n o l r : items_rows p seen l r -> items_rows p seen (Ref n o :: l) (shown p (called p n o) :: r).
End Rows.

(** All objects are below [n], and the names of what has something below it are plain. *)
Section Names.
Context (heap : nat -> obj) (n : nat).
Definition known (o : option nat) : Prop := match o with None => True | Some v => v < n end.
Fixpoint fine (i : item) : Prop :=
  match i with
  | Field _ | Dots => True
  | Arr m es => plain m /\ (fix all (l : list item) : Prop := match l with [] => True | e :: l => fine e /\ all l end) es
  | Sub m o => (m = [] \/ plain m) /\ known o
  | Ref m o => known o
  end.
Definition good : Prop :=
  forall v, v < n -> plain (o_name (heap v)) /\ o_full (heap v) <> [] /\ (forall c, In c (o_kids (heap v)) -> c < n) /\ (forall i, In i (o_items (heap v)) -> fine i).
End Names.

(** The rows stand at the bracket depth of their level, and the brackets match. *)
Fixpoint nested (d : nat) (ts : list token) : Prop :=
  match ts with
  | [] => d = 0
  | TName r :: t => level r = d /\ nested d t
  | TVal _ :: t => nested d t
  | TOpen :: t => nested (S d) t
  | TClose :: t => match d with O => False | S d => nested d t end
  end.
(** The first row is at level 0 and the level never rises by more than one. *)
Fixpoint climbs (prev : nat) (l : list row) : Prop :=
  match l with [] => True | r :: l => level r <= S prev /\ climbs (level r) l end.
Definition starts (l : list row) : Prop := match l with [] => True | r :: l => level r = 0 /\ climbs 0 l end.

Definition blank (n : nat) : str := repeat 32 n.
