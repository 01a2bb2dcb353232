(** Specification vocabulary for the mailbox: projections of a trace of
    observable effects. Written from the English properties C01-C05. *)
From Coq Require Import List Arith.
From Verif Require Import MailboxModel.
Import ListNotations.

Section Spec.
Context {A : Type}.
Implicit Types tr : list (mout A).

(** Items that entered the mailbox, in order. *)
Definition accepted tr : list A :=
  flat_map (fun o => match o with OAccepted _ x => [x] | _ => [] end) tr.

(** Items handed to a getter, in order. *)
Definition delivered tr : list A :=
  flat_map (fun o => match o with ODelivered _ x => [x] | _ => [] end) tr.

(** Items that process [p] passed to put/try_put, in order. *)
Definition offered_by (p : nat) tr : list A :=
  flat_map (fun o => match o with
    | OOffered q x => if Nat.eqb q p then [x] else [] | _ => [] end) tr.

(** Items of [p] whose put/try_put has returned, in order. *)
Definition resolved_by (p : nat) tr : list A :=
  flat_map (fun o => match o with
    | OAccepted q x | ORejected q x => if Nat.eqb q p then [x] else []
    | _ => [] end) tr.

(** The item of a put() that has not returned yet. *)
Definition pending (s : pstate A) : list A :=
  match s with WaitPut x | WokenPut x => [x] | _ => [] end.

(** Process suspended inside get() or peek() / put(), and not runnable. *)
Definition sleeping_reader (s : pstate A) : Prop := s = WaitGet \/ s = WaitPeek.
Definition sleeping_writer (s : pstate A) : Prop := exists x, s = WaitPut x.

(** The labels in which [p] may remove an item. *)
Definition may_remove (p : nat) (l : mlabel A) : Prop :=
  match l with
  | Call q Get | Call q TryGet => q = p
  | _ => True
  end.
Definition only_peeked_by (p : nat) (l : mlabel A) : Prop :=
  match l with Call q Peek => q = p | _ => True end.
End Spec.
