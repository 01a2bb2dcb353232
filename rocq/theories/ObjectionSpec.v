(** What objection counts should be. *)
From Coq Require Import List Bool Arith ZArith Lia.
From Verif Require Import ObjectionModel.
Import ListNotations.
Open Scope Z_scope.

Definition tree (parent : nat -> nat) : Prop := forall o, o <> 0%nat -> (parent o < o)%nat.

Section Spec.
Context (parent : nat -> nat).
(** [below o d]: [d] is [o] or beneath it. *)
Fixpoint belowf (fuel o d : nat) : bool :=
  Nat.eqb o d ||
  match fuel with O => false | S k => if Nat.eqb d 0 then false else belowf k o (parent d) end.
Definition below (o d : nat) : bool := belowf d o d.

(** Raises minus drops accepted from an object. *)
Fixpoint net (tr : list out) (d : nat) : Z :=
  match tr with
  | [] => 0
  | OAcc o k :: tr => (if Nat.eqb o d then k else 0) + net tr d
  | _ :: tr => net tr d
  end.
(** Sum over the objects 0 .. n-1. *)
Definition zsum (f : nat -> Z) (n : nat) : Z := fold_right Z.add 0 (map f (seq 0 n)).
(** The objections outstanding at and beneath [o]. *)
Definition outstanding (n : nat) (tr : list out) (o : nat) : Z :=
  zsum (fun d => if below o d then net tr d else 0) n.

(** Has the top been told that everything is dropped, since the last raise? *)
Fixpoint told (tr : list out) (b : bool) : bool :=
  match tr with
  | [] => b
  | ORaised O :: tr => told tr false
  | OAllDropped O :: tr => told tr true
  | _ :: tr => told tr b
  end.

(** ** Schedules *)
Section Run.
Context (n : nat).
(** Objects are below [n], counts are not negative, and nobody raises an
    objection at or beneath an object that is being drained. *)
Definition calm (s : objn) (l : label) : Prop :=
  match l with
  | LRaise d k => (d < n)%nat /\ 0 <= k /\ forall c, below c d = true -> fctx s c = None
  | LDrop d k => (d < n)%nat /\ 0 <= k
  | _ => True
  end.
(** The background process runs before anything else once it has work. *)
Definition prompt (s : objn) (l : label) : Prop :=
  match l with
  | LBg | LFork | LNotify _ => True
  | _ => sched s = []
  end.
Fixpoint run_ok (ok : objn -> label -> Prop) (s : objn) (ls : list label) : Prop :=
  match ls with
  | [] => True
  | l :: ls => ok s l /\ run_ok ok (fst (ostep parent s l)) ls
  end.
End Run.
(** Nothing is left to do in the background. *)
Definition quiet (s : objn) : Prop := ev s = false /\ nfork s = 0%nat /\ drain s = [].
(** No drain is pending or in progress. *)
Definition no_drain (s : objn) : Prop := sched s = [] /\ flist s = [] /\ drain s = [].

(** A background step that does something. *)
Definition active (s : objn) (l : label) : Prop :=
  match l with
  | LBg => ev s = true
  | LFork => nfork s <> 0%nat
  | LNotify i => exists c, nth_error (drain s) i = Some (DProc c false)
  | LFinish i => exists c, nth_error (drain s) i = Some (DProc c true)
  | _ => False
  end.
End Spec.
