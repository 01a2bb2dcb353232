(** What a user expects of waiting in a sequencer. *)
From Coq Require Import ZArith List Bool Arith.
From Verif Require Import SeqrModel SeqrSpec SelModel.
Import ListNotations.
Local Open Scope nat_scope.

(** The events of the sequencer in a trace. *)
Definition evs (tr : list sout) : list out := flat_map (fun e => match e with Ev o => [o] | _ => [] end) tr.

(** is_relevant() always returns 0 or 1. *)
Definition zero_or_one (l : slab) : Prop :=
  match l with SDrv rv _ => forall s, rv s = 0%Z \/ rv s = 1%Z | _ => True end.
(** Nobody asked for a lock. *)
Definition lockless (tr : list sout) : Prop := forall r s, ~ In (Ev (OLockRequested r s)) tr.
(** The arbitration mode stays FIFO. *)
Definition first_come (l : slab) : Prop :=
  match l with SCore (LArb a) => a = 0 | _ => True end.
(** The driver uses get_next_item only, and does not call item_done. *)
Definition next_only (l : slab) : Prop :=
  match l with SCall KNext => True | SCall _ | SDone _ => False | _ => True end.

(** The driver is in a call and is to choose a request. *)
Definition seeking (d : dst) : Prop := match d with DNba _ | DWait _ _ => True | _ => False end.
(** The driver sleeps: it does not run until the event wakes it. *)
Definition asleep (d : dst) : Prop := match d with DWait _ b => b = false | _ => False end.
