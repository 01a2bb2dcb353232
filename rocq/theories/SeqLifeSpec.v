(** What the life of a sequence should look like. *)
From Coq Require Import ZArith List Bool Arith.
From Verif Require Import Prelude DapModel SeqLifeModel.
Import ListNotations.

(** What is heard of one call of start(), objections apart. *)
Inductive ev := EHook (h : hook) (seen : sstate) | EPreDo (q : nat) | EMidDo (q : nat) | EPostDo (q : nat) | EReturned.
Definition heard (p : nat) (o : out) : list ev :=
  match o with
  | OHook p' h x => if Nat.eqb p p' then [EHook h x] else []
  | OPreDo p' q => if Nat.eqb p p' then [EPreDo q] else []
  | OMidDo p' q => if Nat.eqb p p' then [EMidDo q] else []
  | OPostDo p' q => if Nat.eqb p p' then [EPostDo q] else []
  | OReturned p' => if Nat.eqb p p' then [EReturned] else []
  | _ => []
  end.
Definition heards (p : nat) (tr : list out) : list ev := flat_map (heard p) tr.
Definition is_run (p : nat) (l : lab) : bool := match l with LRun p' => Nat.eqb p p' | _ => false end.
Definition is_throw (p : nat) (l : lab) : bool := match l with LThrow p' => Nat.eqb p p' | _ => false end.
(** The order documented for start(), with the state get_sequence_state() shows in each hook. *)
Definition script (parent : option nat) (cpp : bool) : list ev :=
  let of_parent (f : nat -> list ev) := match parent with Some q => f q | None => [] end in
  [EHook HPreStart PRE_START] ++
  (if cpp then [EHook HPreBody PRE_BODY] else []) ++
  of_parent (fun q => [EPreDo q; EMidDo q]) ++
  [EHook HBody BODY] ++
  of_parent (fun q => [EPostDo q]) ++
  (if cpp then [EHook HPostBody POST_BODY] else []) ++
  [EHook HPostStart POST_START; EReturned].

(** Objections outstanding for a phase. *)
Definition raised (ph : nat) (o : out) : Z :=
  match o with
  | ORaised _ ph' => if Nat.eqb ph ph' then 1%Z else 0%Z
  | ODropped _ ph' => if Nat.eqb ph ph' then (-1)%Z else 0%Z
  | _ => 0%Z
  end.
Definition outstanding (ph : nat) (tr : list out) : Z := fold_right (fun o n => (raised ph o + n)%Z) 0%Z tr.

(** What get_automatic_phase_objection() and get_starting_phase() say about [ph]. *)
Definition holds_for (s : sq) (ph : nat) : bool :=
  truthy (g_val (apo s)) && match g_val (sp s) with Some x => Nat.eqb ph x | None => false end.

Definition running (s : sq) (p : nat) : Prop := exists r q a, procs s p = PLive r q a.
Definition gone (s : sq) (p : nat) : Prop := procs s p = PNone \/ procs s p = PDone.
(** The callers start the sequence again only when the last start() has returned, and never
    with a priority below -1. *)
Section Callers.
Context (ppri : nat -> Z) (psqr : nat -> bool).
Fixpoint one_at_a_time (s : sq) (ls : list lab) : Prop :=
  match ls with
  | [] => True
  | l :: ls' =>
      match l with LStart _ _ _ z _ => (-1 <= z)%Z /\ forall p, gone s p | _ => True end /\
      one_at_a_time (fst (step ppri psqr s l)) ls'
  end.
End Callers.
