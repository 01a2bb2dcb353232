(** Specification of a finite sequence, position by position. Independent of the
    way the model builds lists. *)
From Coq Require Import ZArith List Bool Arith Lia.
From Verif Require Import QueueModel.
Import ListNotations.
Open Scope Z_scope.

Section Spec.
Context {A : Type}.

Definition len (l : list A) : Z := Z.of_nat (length l).
(** [at_pos l i x]: position [i] (from 0) of [l] holds [x]. *)
Definition at_pos (l : list A) (i : Z) (x : A) : Prop :=
  0 <= i /\ nth_error l (Z.to_nat i) = Some x.
(** The position designated by a Python-style subscript, if any. *)
Definition designates (l : list A) (i p : Z) : Prop :=
  (0 <= i < len l /\ p = i) \/ (- len l <= i < 0 /\ p = len l + i).

(** [l'] is [l] with [x] inserted before position [i]. *)
Definition inserted (l : list A) (i : Z) (x : A) (l' : list A) : Prop :=
  len l' = len l + 1 /\
  forall j y, at_pos l' j y <->
    (j < i /\ at_pos l j y) \/ (j = i /\ y = x) \/ (i < j /\ at_pos l (j - 1) y).
(** [l'] is [l] without position [i]. *)
Definition removed (l : list A) (i : Z) (l' : list A) : Prop :=
  len l' = len l - 1 /\
  forall j y, at_pos l' j y <-> (0 <= j < i /\ at_pos l j y) \/ (i <= j /\ at_pos l (j + 1) y).
(** [l'] is [l] with position [i] overwritten. *)
Definition replaced (l : list A) (i : Z) (x : A) (l' : list A) : Prop :=
  len l' = len l /\
  forall j y, at_pos l' j y <-> (j <> i /\ at_pos l j y) \/ (j = i /\ y = x).

(** One call: contents before, call, contents after, result. *)
Definition seq_call (l : list A) (o : qop A) (l' : list A) (r : qres A) : Prop :=
  match o with
  | QSize => l' = l /\ r = RSize (len l)
  | QGet i => l' = l /\
      ((exists x, at_pos l i x /\ r = RVal x) \/ (~ 0 <= i < len l /\ r = RDefault))
  | QGetItem i => l' = l /\
      ((exists p x, designates l i p /\ at_pos l p x /\ r = RVal x) \/
       (~ (exists p, designates l i p) /\ r = RRaise))
  | QSetItem i x =>
      (exists p, designates l i p /\ replaced l p x l' /\ r = RNone) \/
      (~ (exists p, designates l i p) /\ l' = l /\ r = RRaise)
  | QInsert i x => r = RNone /\
      ((0 <= i < len l /\ inserted l i x l') \/ (~ 0 <= i < len l /\ l' = l))
  | QDelete i => r = RNone /\
      ((i = -1 /\ l' = []) \/ (0 <= i < len l /\ removed l i l') \/
       (i <> -1 /\ ~ 0 <= i < len l /\ l' = l))
  | QPopFront => (exists x, at_pos l 0 x /\ removed l 0 l' /\ r = RVal x) \/
                 (l = [] /\ l' = [] /\ r = RRaise)
  | QPopBack => (exists x, at_pos l (len l - 1) x /\ removed l (len l - 1) l' /\ r = RVal x) \/
                (l = [] /\ l' = [] /\ r = RRaise)
  | QFront => l' = l /\ ((exists x, at_pos l 0 x /\ r = RVal x) \/ (l = [] /\ r = RNone))
  | QBack => l' = l /\ ((exists x, at_pos l (len l - 1) x /\ r = RVal x) \/ (l = [] /\ r = RNone))
  | QPushFront x => r = RNone /\ inserted l 0 x l'
  | QPushBack x => r = RNone /\ inserted l (len l) x l'
  | QSlice i j => l' = l /\ r = RRaise  (* not supported *)
  end.

(** A whole history. *)
Inductive seq_hist : list A -> list (qop A) -> list A -> list (qres A) -> Prop :=
| SH_nil l : seq_hist l [] l []
| SH_cons l o os l1 r l2 rs :
    seq_call l o l1 r -> seq_hist l1 os l2 rs -> seq_hist l (o :: os) l2 (r :: rs).

(** The calls made on queue object [q], in order. *)
Fixpoint calls_on (q : nat) (os : list (hop A)) : list (qop A) :=
  match os with
  | [] => []
  | HOp q' o :: os => if Nat.eqb q' q then o :: calls_on q os else calls_on q os
  | HCopy _ _ :: os => calls_on q os
  end.
Definition no_copy_below (n : nat) (o : hop A) : Prop :=
  match o with HOp q _ => (q < n)%nat | HCopy _ _ => False end.

End Spec.
