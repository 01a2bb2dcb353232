(** Specification of the proxies: what the history of calls determines. *)
From Coq Require Import List Bool Arith Ascii.
From Verif Require Import Prelude FactoryModel SvModel RgyModel.
Import ListNotations.
Local Open Scope nat_scope.

(** [a] and [b] with a dot between, unless one is empty *)
Definition dotted (a b : str) : str := match a, b with [], _ => b | _, [] => a | _, _ => a ++ "."%char :: b end.
(** The path an instance override is for; below the root, whose name is empty, it begins with the dot. *)
Definition override_path (parent : option str) (p : str) : str :=
  match parent with
  | None => p
  | Some [] => match p with [] => [] | _ => "."%char :: p end
  | Some fn => dotted fn p
  end.
(** The path of a new object *)
Definition object_path (name contxt : str) (parent : option str) : str :=
  dotted (match contxt with [] => match parent with Some p => p | None => [] end | _ => contxt end) name.

Section Spec.
Context (wkind : nat -> rkind) (wname : nat -> nat) (wclass : nat -> nat) (plain_class : nat -> bool).
Context (num : str -> nat).

(** Constructions tried *)
Fixpoint tried (ops : list rop) : nat := match ops with [] => 0 | New :: ops => S (tried ops) | _ :: ops => tried ops end.

(** Histories are read from the end: [h] is the list of calls, latest first. *)
Fixpoint latest (h : list rop) (k : rkind) (n : nat) : option nat :=
  match h with
  | [] => None
  | ResetCore :: _ => None
  | New :: h =>
      let w := tried h in
      if plain_class w && kind_eqb (wkind w) k && Nat.eqb (wname w) n then Some (wclass w) else latest h k n
  | _ :: h => latest h k n
  end.
(** Core services discarded *)
Fixpoint resets (h : list rop) : nat := match h with [] => 0 | ResetCore :: h => S (resets h) | _ :: h => resets h end.
Fixpoint current (h : list rop) : fid :=
  match h with
  | [] => Own 0
  | ResetCore :: h => Own (S (resets h))
  | SetFactory f :: _ => f
  | _ :: h => current h
  end.
(** The proxy can be used: its name is registered. *)
Definition usable (h : list rop) (w : nat) : bool := match latest h (wkind w) (wname w) with Some _ => true | None => false end.

(** What reached factory [f], oldest first: each construction is registered with the factory
    current at that time, and overrides are set there if the proxy is usable. *)
Fixpoint reached (h : list rop) (f : fid) : list fop :=
  match h with
  | [] => []
  | o :: h =>
      reached h f ++
      (if fid_eqb (current h) f then
         match o with
         | New => if plain_class (tried h) then [Reg (tried h)] else []
         | SetType w w' r => if usable h w then [TypeT w w' r] else []
         | SetInst w w' p parent => if usable h w then [InstT w w' (num (override_path parent p))] else []
         | _ => []
         end
       else [])
  end.
(** The first proxy registered with a factory under a name *)
Fixpoint first_named (tn : nat -> option nat) (l : list fop) (n : nat) : option nat :=
  match l with
  | [] => None
  | Reg w :: l => if opt_eqb (tn w) (Some n) then Some w else first_named tn l n
  | _ :: l => first_named tn l n
  end.
Definition no_override (l : list fop) : Prop := forall o, In o l -> exists w, o = Reg w.
End Spec.

(** The characters have no meaning in a pattern. *)
Definition literal (c : ascii) : Prop := ~ In c ["+"; "("; ")"; "{"; "}"; "^"; "$"; "|"; "\"; "*"; "?"]%char.

(** Calls that set no override for [w] *)
Definition sets_none (w : nat) (ops : list rop) : Prop :=
  forall o, In o ops -> match o with SetType x _ _ | SetInst x _ _ _ => x <> w | _ => True end.
(** Calls that do not change the factory in use *)
Definition same_factory (ops : list rop) : Prop :=
  forall o, In o ops -> match o with SetFactory _ | ResetCore => False | _ => True end.
(** Only constructions of proxies and creations *)
Definition news_only (ops : list rop) : Prop := forall o, In o ops -> match o with New | Create _ _ _ _ => True | _ => False end.
Definition creates_only (ops : list rop) : Prop := forall o, In o ops -> match o with Create _ _ _ _ => True | _ => False end.
