(** What the audit trail has to say: functions of the operations done so far, newest first. *)
From Coq Require Import List String ZArith Bool.
From Verif Require Import AudModel.
Import ListNotations.
Local Open Scope nat_scope.
Local Open Scope string_scope.

(** auditing is on unless it was switched off last *)
Fixpoint is_on (h : list op) : bool :=
  match h with [] => true | Auditing b :: _ => b | _ :: h => is_on h end.
Fixpoint locked (i : nat) (h : list op) : bool :=
  match h with
  | [] => false
  | SetReadOnly j :: h => if Nat.eqb i j then true else locked i h
  | SetReadWrite j :: h => if Nat.eqb i j then false else locked i h
  | _ :: h => locked i h
  end.
(** the value last written while writing was allowed *)
Fixpoint value (i : nat) (h : list op) : option Z :=
  match h with
  | [] => None
  | Write j v _ :: h => if Nat.eqb i j && negb (locked i h) then v else value i h
  | _ :: h => value i h
  end.
(** how often resource [i] was read by [k] while auditing *)
Definition who (a : option string) : string := match a with Some n => n | None => "<empty>" end.
Fixpoint reads (i : nat) (k : string) (h : list op) : nat :=
  match h with
  | [] => 0
  | Read j a :: h => (if Nat.eqb i j && is_on h && String.eqb (who a) k then 1 else 0) + reads i k h
  | _ :: h => reads i k h
  end.
(** how often [k] changed it; a write of the value there is, or one that is refused, does not count *)
Definition same (a b : option Z) : {a = b} + {a <> b}.
Proof. decide equality. apply Z.eq_dec. Defined.
Fixpoint changes (i : nat) (k : string) (h : list op) : nat :=
  match h with
  | [] => 0
  | Write j v (Some n) :: h =>
      (if Nat.eqb i j && is_on h && negb (locked i h) && (if same (value i h) v then false else true) && String.eqb n k then 1 else 0)
      + changes i k h
  | _ :: h => changes i k h
  end.
(** the accessors of [i] that have a record, in the order of their first recorded access *)
Definition once (k : string) (l : list string) : list string := if in_dec string_dec k l then l else (l ++ [k])%list.
Fixpoint accessors (i : nat) (h : list op) : list string :=
  match h with
  | [] => []
  | Read j a :: h => if Nat.eqb i j && is_on h then once (who a) (accessors i h) else accessors i h
  | Write j v (Some n) :: h =>
      if Nat.eqb i j && is_on h && negb (locked i h) && (if same (value i h) v then false else true) then once n (accessors i h)
      else accessors i h
  | _ :: h => accessors i h
  end.
(** the attempts to get, oldest first *)
Fixpoint attempts (h : list op) : list get_t :=
  match h with
  | [] => []
  | GetByName scope name found :: h => if is_on h then (attempts h ++ [Get_t name scope found])%list else attempts h
  | _ :: h => attempts h
  end.
(** the operations without what the audit trail is about *)
Inductive core := CRead (i : nat) | CWrite (i : nat) (v : option Z) | CLock (i : nat) (b : bool) | CGet (o : option nat).
Definition core_of (o : op) : list core :=
  match o with
  | Read i _ => [CRead i] | Write i v _ => [CWrite i v] | SetReadOnly i => [CLock i true] | SetReadWrite i => [CLock i false]
  | Auditing _ => [] | GetByName _ _ f => [CGet f]
  end.
