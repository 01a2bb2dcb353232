(** What the values of objects are, without reference to how copy and compare work:
    the tree of values below an object through given fields, the objects reachable,
    and the pairs of objects at the same place below two objects. *)
From Coq Require Import ZArith List Bool Arith.
From Verif Require Import Prelude ObjModel.
Import ListNotations.
Local Open Scope nat_scope.

Inductive tree :=
| TNone | TInt (z : Z) | TStr (s : nat) | TOther (n : nat)
| TObj (class : nat) (fields : list tree).

Section Spec.
(** The fields of each class that matter. *)
Variable sel : nat -> list nat.

(** The value [v] is, through the selected fields, the tree [t]. There is such a tree
    for the acyclic values only. *)
Fixpoint den (h : heap) (v : val) (t : tree) {struct t} : Prop :=
  match t with
  | TNone => v = VNone
  | TInt z => v = VInt z
  | TStr s => v = VStr s
  | TOther n => v = VOther n
  | TObj c ts =>
      exists o fl, v = VObj o /\ obj h o = Some (c, fl) /\
        (fix dens (fs : list nat) (ts : list tree) {struct ts} : Prop :=
           match fs, ts with
           | [], [] => True
           | f :: fs', t :: ts' => (exists v', fl f = Some v' /\ den h v' t) /\ dens fs' ts'
           | _, _ => False
           end) (sel c) ts
  end.

Inductive reach (h : heap) : val -> nat -> Prop :=
| reach_self o : reach h (VObj o) o
| reach_field o c fl f v p :
    obj h o = Some (c, fl) -> In f (sel c) -> fl f = Some v -> reach h v p -> reach h (VObj o) p.

(** [p] and [q] are at the same place below the two values. *)
Inductive together (h : heap) : val -> val -> nat -> nat -> Prop :=
| tog_self a b : together h (VObj a) (VObj b) a b
| tog_field a b c fl fl' f v v' p q :
    obj h a = Some (c, fl) -> obj h b = Some (c, fl') -> In f (sel c) ->
    fl f = Some v -> fl' f = Some v' -> together h v v' p q ->
    together h (VObj a) (VObj b) p q.
End Spec.

(** Same classes at the same places; only ints may differ. *)
Fixpoint same_shape (t1 t2 : tree) {struct t1} : Prop :=
  match t1, t2 with
  | TInt _, TInt _ => True
  | TObj c1 l1, TObj c2 l2 =>
      c1 = c2 /\
      (fix shapes (l1 l2 : list tree) {struct l1} : Prop :=
         match l1, l2 with
         | [], [] => True
         | a :: l1', b :: l2' => same_shape a b /\ shapes l1' l2'
         | _, _ => False
         end) l1 l2
  | _, _ => t1 = t2
  end.

Definition well_formed (h : heap) : Prop := forall o x, obj h o = Some x -> o < next h.
(** A field takes part in copy when declared with UVM_COPY (1) and without
    UVM_NOCOPY (2); in compare with UVM_COMPARE (4) and without UVM_NOCOMPARE (8). *)
Definition flagged (yes no mask : Z) : bool :=
  (negb (Z.land mask yes =? 0) && (Z.land mask no =? 0))%Z.
Definition copied_fields (passes : nat -> list (list (nat * Z))) (c : nat) : list nat :=
  map fst (filter (fun f => flagged 1 2 (snd f)) (concat (passes c))).
Definition compared_fields (passes : nat -> list (list (nat * Z))) (c : nat) : list nat :=
  map fst (filter (fun f => flagged 4 8 (snd f)) (concat (passes c))).
