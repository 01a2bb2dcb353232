(** What is asked about register accesses through a bus sequencer. *)
From Coq Require Import ZArith List Bool Arith.
From Verif Require Import Prelude BusModel.
Import ListNotations.
Local Open Scope nat_scope.

(** How many elements satisfy a test. *)
Definition count {A} (f : A -> bool) (l : list A) : nat := List.length (filter f l).

(** An access to register r has begun. *)
Definition begins (r : nat) (o : bout) : bool := match o with Began _ r' _ _ => Nat.eqb r' r | _ => false end.
(** reset() of register r *)
Definition resets (r : nat) (l : blab) : bool := match l with Reset r' => Nat.eqb r' r | _ => false end.
(** A bus transfer on behalf of sequence q was answered with a response. *)
Definition answered (q : sq) (o : bout) : bool := match o with Moved _ _ q' _ true => sq_eqb q' q | _ => false end.
(** The overflow of q's response queue was reported. *)
Definition overflows (q : sq) (o : bout) : bool := match o with Overflow q' => sq_eqb q' q | _ => false end.
(** A transfer of process p, an access of p begun. *)
Definition moves (p : nat) (o : bout) : bool := match o with Moved p' _ _ _ _ => Nat.eqb p' p | _ => false end.
Definition starts (p : nat) (o : bout) : bool := match o with Began p' _ _ _ => Nat.eqb p' p | _ => false end.

(** Nobody answers with responses. *)
Definition mute (l : blab) : Prop := match l with Xfer _ _ rsp => rsp = false | Put _ => False | _ => True end.
(** The user leaves the responses of sequence q and its settings alone, and does not end it. *)
Definition leaves_alone (q : sq) (l : blab) : Prop :=
  match l with
  | Put q' | Fetch q' => q' <> q
  | End n | Depth n _ | Quiet n _ => User n <> q
  | _ => True
  end.

(** What the driver answered to process p, in order. *)
Fixpoint answers (p : nat) (ls : list blab) : list bool :=
  match ls with
  | [] => []
  | Xfer p' ok _ :: ls => if Nat.eqb p' p then ok :: answers p ls else answers p ls
  | _ :: ls => answers p ls
  end.
(** The status of an access of n+1 words: the first failure, or success after all. *)
Fixpoint outcome (n : nat) (oks : list bool) {struct oks} : option bool :=
  match oks with
  | [] => None
  | false :: _ => Some false
  | true :: oks => match n with 0 => Some true | S n => outcome n oks end
  end.
(** Process p's call returned or raised. *)
Definition ends (p : nat) (o : bout) : bool :=
  match o with Done p' _ _ _ _ | Raised p' _ _ _ => Nat.eqb p' p | _ => false end.
(** Process p makes no further call. *)
Definition calls_not (p : nat) (l : blab) : Prop := match l with Call p' _ _ _ _ => p' <> p | _ => True end.
(** A response for sequence q was queued; an access of q raised. *)
Definition queued (q : sq) (o : bout) : bool := match o with Queued q' => sq_eqb q' q | _ => false end.
Definition raises (q : sq) (o : bout) : bool := match o with Raised _ _ _ q' => sq_eqb q' q | _ => false end.
Definition fetches_not (q : sq) (l : blab) : Prop := l <> Fetch q.
