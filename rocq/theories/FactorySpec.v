(** What the factory's documentation promises, in terms of the calls made. *)
From Coq Require Import List Bool Arith.
From Verif Require Import FactoryModel.
Import ListNotations.
Open Scope nat_scope.

Section Spec.
Context (pmatch : nat -> nat -> bool).

(** The instance override for [req] at [path]: the first one set whose pattern
    matches. *)
Fixpoint inst_choice (hist : list fop) (path req : nat) : option nat :=
  match hist with
  | [] => None
  | InstT o t pat :: h =>
      if Nat.eqb o req && pmatch pat path then Some t else inst_choice h path req
  | _ :: h => inst_choice h path req
  end.
(** The type override for [req]: the last one set with replace, or the first. *)
Definition type_choice1 (req : nat) (cur : option nat) (o : fop) : option nat :=
  match o with
  | TypeT o t r =>
      if Nat.eqb o req then
        match cur with None => Some t | Some _ => if r then Some t else cur end
      else cur
  | _ => cur
  end.
Definition type_choice (hist : list fop) (req : nat) : option nat :=
  fold_left (type_choice1 req) hist None.
(** Instance overrides take precedence; an empty path has none. *)
Definition choice (hist : list fop) (path : option nat) (req : nat) : option nat :=
  match path with
  | Some p => match inst_choice hist p req with
              | Some t => Some t
              | None => type_choice hist req
              end
  | None => type_choice hist req
  end.

(** Following overrides to the end; an override of a type by itself ends it. *)
Inductive resolves (hist : list fop) (path : option nat) : nat -> nat -> Prop :=
| res_none : forall r, choice hist path r = None -> resolves hist path r r
| res_self : forall r, choice hist path r = Some r -> resolves hist path r r
| res_step : forall r t u, choice hist path r = Some t -> t <> r ->
    resolves hist path t u -> resolves hist path r u.
End Spec.

(** Distinct types have distinct names. *)
Definition names_unique (tname : nat -> option nat) : Prop :=
  forall x y n, tname x = Some n -> tname y = Some n -> x = y.

Definition by_type_only (hist : list fop) : Prop :=
  Forall (fun o => match o with TypeN _ _ _ => False | _ => True end) hist.
