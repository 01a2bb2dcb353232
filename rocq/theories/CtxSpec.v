(** Spec of the context of sequence items. *)
From Coq Require Import ZArith List Bool Arith String.
From Verif Require Import CtxModel.
Import ListNotations.
Local Open Scope nat_scope.

(** the parent sequence, its parent sequence, and so on *)
Inductive chain (s : cs) : nat -> list nat -> Prop :=
| chain_top x : o_par (ob s x) = None -> chain s x []
| chain_up x p l : o_par (ob s x) = Some p -> chain s p l -> chain s x (p :: l).
Definition leaf (s : cs) (x : nat) : Prop := forall y, o_par (ob s y) <> Some x.
Definition shown (n : string) : string := match n with EmptyString => "_item"%string | _ => n end.
Definition to_list {A} (o : option A) : list A := match o with Some x => [x] | None => [] end.
(** the first given of three *)
Inductive first_of (a b c : option nat) : option nat -> Prop :=
| first_a t : a = Some t -> first_of a b c (Some t)
| first_b t : a = None -> b = Some t -> first_of a b c (Some t)
| first_c : a = None -> b = None -> first_of a b c c.
(** calls that name a sequencer for [x], or start it *)
Definition names_sequencer (l : label) (x : nat) : Prop :=
  match l with
  | LContext y _ _ | LSqr y _ | LStart y _ _ _ | LItem _ y _ (Some _) | LDo _ y _ _ true _ | LExec _ y => y = x
  | _ => False
  end.
(** calls that keep the sequences a tree with the depths right: no depth is set by hand, no
    parent without a context, and only an object that is nobody's parent gets another parent *)
Definition may_join (s : cs) (x p : nat) : Prop := x <> p /\ (o_par (ob s x) = Some p \/ leaf s x).
Definition tidy (s : cs) (l : label) : Prop :=
  match l with
  | LDep _ _ | LPar _ _ => False
  | LContext x (Some p) _ | LStart x _ (Some p) _ => may_join s x p
  | LItem q x _ _ | LDo q x _ _ _ _ | LSendMac q x _ => may_join s x q
  | LExec _ x => leaf s x
  | _ => True
  end.
Fixpoint tidy_run (s : cs) (ls : list label) : Prop :=
  match ls with [] => True | l :: ls => tidy s l /\ tidy_run (fst (step s l)) ls end.
(** no priority is ever given, and parents are started first *)
Definition plain_prio (tr : list out) (l : label) : Prop :=
  match l with
  | LPrio _ _ => False
  | LStart _ _ p prio => prio = (-1)%Z /\ match p with None => True | Some p => exists q, In (OStart p q 100) tr end
  | LDo q _ _ prio _ _ | LSendMac q _ prio | LItem q _ prio _ => prio = (-1)%Z /\ exists t, In (OStart q t 100) tr
  | LExec _ _ => False
  | _ => True
  end.
Fixpoint plain_run (s : cs) (tr : list out) (ls : list label) : Prop :=
  match ls with [] => True | l :: ls => plain_prio tr l /\ plain_run (fst (step s l)) (tr ++ snd (step s l)) ls end.
