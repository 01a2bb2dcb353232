(** Model of src/uvm/base/uvm_scope_stack.py. Strings are lists of character codes. *)
From Coq Require Import List Bool Arith.
Import ListNotations.
Local Open Scope nat_scope.

Definition str := list nat.
Definition dot := 46.
Definition lbr := 91.      (* [ *)
Definition rbr := 93.      (* ] *)
Definition lpar := 40.     (* ( *)
Definition lcur := 123.    (* { *)

(** m_arg; [ASet] is the Python set that set_arg_element stores (98). *)
Inductive arg := AStr (s : str) | ASet.
Record scope := Sc { m_arg : arg; m_stack : list str (* bottom first *) }.
Definition scope0 := Sc (AStr []) [].

Definition starts_br (v : str) : bool :=
  match v with [] => false | c :: _ => Nat.eqb c lbr || Nat.eqb c lpar || Nat.eqb c lcur end.

(** 32-50; None is the TypeError of adding a string and a set, [Some ASet] the set
    itself (35, 49). *)
Fixpoint join (get : str) (vs : list str) : str :=
  match vs with
  | [] => get
  | v :: vs' => join (if starts_br v then get ++ v else get ++ dot :: v) vs'
  end.
Definition get (y : scope) : option arg :=
  match m_stack y with
  | [] => Some (m_arg y)
  | v0 :: vs =>
      let g := join v0 vs in
      match m_arg y with
      | AStr [] => Some (AStr g)
      | AStr a => Some (AStr match g with [] => a | _ => g ++ dot :: a end)
      | ASet => match g with [] => Some ASet | _ => None end
      end
  end.

(** 55-67 *)
Definition set (y : scope) (s : str) : scope := Sc (AStr []) [s].
Definition down (y : scope) (s : str) : scope := Sc (AStr []) (m_stack y ++ [s]).
Definition down_element (y : scope) (digits : str) : scope :=
  Sc (AStr []) (m_stack y ++ [lbr :: digits ++ [rbr]]).

(** 69-75 *)
Definition up_element (y : scope) : scope :=
  match rev (m_stack y) with
  | [] => y
  | s :: r =>
      Sc (m_arg y) (rev match s with [] => r | c :: _ => if Nat.eqb c lbr then r else s :: r end)
  end.

(** 77-88 *)
Fixpoint pop_until (found : str -> bool) (r : list str) : list str :=
  match r with [] => [] | s :: r' => if found s then r' else pop_until found r' end.
Definition up (y : scope) (separator : nat) : scope :=
  let found s := if Nat.eqb separator dot then negb (starts_br s)
                 else match s with [] => false | c :: _ => Nat.eqb c separator end in
  Sc (AStr []) (rev (pop_until found (rev (m_stack y)))).

(** 91-102; comparing a string with a set is just unequal. *)
Definition set_arg (y : scope) (a : str) : scope :=
  match a with [] => y | _ => Sc (AStr a) (m_stack y) end.
Definition set_arg_element (y : scope) (a : str) (digits : str) : scope := Sc ASet (m_stack y).
Definition str_eq_dec : forall a b : str, {a = b} + {a <> b} := list_eq_dec Nat.eq_dec.
Definition unset_arg (y : scope) (a : str) : scope :=
  match m_arg y with
  | AStr b => if str_eq_dec a b then Sc (AStr []) (m_stack y) else y
  | ASet => y
  end.

Inductive op :=
| Down (s : str) | DownEl (d : str) | UpEl | Up (sep : nat) | SetArg (a : str) | UnsetArg (a : str)
| SetArgEl (a d : str) | SetTop (s : str).
Definition step (y : scope) (o : op) : scope :=
  match o with
  | Down s => down y s | DownEl d => down_element y d | UpEl => up_element y | Up sep => up y sep
  | SetArg a => set_arg y a | UnsetArg a => unset_arg y a
  | SetArgEl a d => set_arg_element y a d | SetTop s => set y s
  end.
Definition run (y : scope) (os : list op) : scope := fold_left step os y.
