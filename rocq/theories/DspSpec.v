(** What a display of objections should show. *)
From Coq Require Import List Bool Arith ZArith String Ascii.
From Verif Require Import DspModel.
Import ListNotations.
Local Open Scope string_scope.

(** the objects with objections at or beneath them, in the order of the entries *)
Definition active (l : list (nat * Z)) : list nat := map fst (filter (fun e => Z.ltb 0 (snd e)) l).
Definition starts (a b : string) : bool := prefix a b.
(** the objects up to and including the first that fails the test *)
Fixpoint through (f : nat -> bool) (l : list nat) : list nat :=
  match l with [] => [] | a :: l => if f a then a :: through f l else [a] end.
(** [split_at n p x]: x is the part of n behind its last dot, with d dots before it *)
Fixpoint dots (n : string) : nat := match n with "" => 0 | String c n => (if Ascii.eqb c "." then 1 else 0) + dots n end.
Definition last_part (n x : string) : Prop := dots x = 0 /\ (n = x \/ exists p, n = p ++ "." ++ x).
(** the line of an object *)
Definition line_of (full : nat -> string) (src tot : nat -> Z) (o : nat) (r : piece) : Prop :=
  exists x, last_part (full o) x /\
  r = match full o with
      | "" => Row (src o) (tot o) 0 "uvm_top"
      | n => Row (src o) (tot o) (Nat.min 83 (2 * (dots n + 1))) x
      end.
Definition count_of (l : list (nat * Z)) (o : nat) : Z := match find (fun e => Nat.eqb (fst e) o) l with Some e => snd e | None => 0%Z end.
(** the entries are a dictionary, and objects with objections have different names *)
Definition proper (full : nat -> string) (l : list (nat * Z)) : Prop :=
  NoDup (map fst l) /\ forall a b, In a (active l) -> In b (active l) -> full a = full b -> a = b.
