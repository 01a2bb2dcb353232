(** The rule the documentation gives for leaving out tests. *)
From Coq Require Import List Bool Arith ZArith.
From Verif Require Import ResourceSpec ExcModel.
Import ListNotations.
Local Open Scope nat_scope.

(** Names that stop a test, wherever they are set. *)
Definition documented (t : test) : list flag :=
  match t with
  | HwReset => [NO_REG_TESTS; NO_REG_HW_RESET_TEST]
  | BitBash => [NO_REG_TESTS; NO_REG_BIT_BASH_TEST]
  | RegAccess => [NO_REG_TESTS; NO_REG_ACCESS_TEST]
  | MemAccess => [NO_REG_TESTS; NO_MEM_TESTS; NO_MEM_ACCESS_TEST]
  | MemWalk => [NO_REG_TESTS; NO_MEM_TESTS; NO_MEM_WALK_TEST]
  end.
(** Position of the test in the mask *)
Definition position (t : test) : Z :=
  match t with HwReset => 0 | BitBash => 1 | RegAccess => 2 | MemAccess => 3 | MemWalk => 5 end.
Definition needs_door (t : test) : bool := match t with RegAccess | MemAccess => true | _ => false end.

Section S.
Context (smatch : nat -> nat -> bool) (num : flag -> nat).
(** One of the names was set in the resource database, to whatever value, for a scope that
    matches [p]. *)
Definition excluded (ops : list rdb_op) (fs : list flag) (p : nat) : Prop :=
  exists f scope v, In f fs /\ In (DSet scope (num f) v) ops /\ smatch scope p = true.
End S.

Inductive beneath : node -> node -> Prop :=
| beneath_self n : beneath n n
| beneath_sub n p rs ms bs c : In c bs -> beneath n c -> beneath n (Node p rs ms bs).
Definition contains (t : test) (n : node) (e : nat) : Prop :=
  match n with Node _ rs ms _ => match t with MemAccess | MemWalk => In e ms | _ => In e rs end end.
Fixpoint height (n : node) : nat := let 'Node _ _ _ bs := n in S (list_max (map height bs)).
