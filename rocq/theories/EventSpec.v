(** What a user expects of an event, from the calls made. *)
From Coq Require Import ZArith List Bool.
From Verif Require Import Prelude EventModel.
Import ListNotations.

(** On from a trigger to the next reset. *)
Definition spec_on1 (b : bool) (l : lab) : bool :=
  match l with LTrigger _ _ => true | LReset _ => false | _ => b end.
Definition spec_on (ls : list lab) : bool := fold_left spec_on1 ls false.

Definition no_callbacks (l : lab) : Prop := match l with LAdd _ _ => False | _ => True end.
Definition not_run (p : nat) (l : lab) : Prop := l <> LRun p.
Definition no_reset (l : lab) : Prop := match l with LReset _ => False | _ => True end.
Definition no_trigger (l : lab) : Prop := match l with LTrigger _ _ | LReset _ => False | _ => True end.

Definition after (ls : list lab) : event := fst (run_machine step event0 ls).
Definition trace_from (y : event) (ls : list lab) : list out := snd (run_machine step y ls).

(** The process has no call outstanding: every wait call it made has returned. *)
Definition is_free (ls : list lab) (p : nat) : Prop := ps (after ls) p = Idle.
(** Its next turn makes its call return. *)
Definition returns (ls : list lab) (p : nat) : Prop := snd (step (after ls) (LRun p)) = [ORet p].
(** Whatever happens from now on, its call does not return. *)
Definition never_returns (ls : list lab) (p : nat) : Prop :=
  forall more, ~ In (ORet p) (trace_from (after ls) more).

(** The number of waiters, from the calls made: reset and trigger start again at 0,
    cancel takes one off, a wait call that has to wait adds one. wait_trigger counts
    even if the event is set. *)
Definition has_to_wait (ls : list lab) (l : lab) : Prop :=
  match l with
  | LWaitOn p _ => is_free ls p /\ spec_on ls = false
  | LWaitOff p _ => is_free ls p /\ spec_on ls = true
  | LWaitTrigger p => is_free ls p
  | LWaitPtrigger p => is_free ls p /\ snd (step (after ls) l) <> [ORet p]
  | _ => False
  end.
Inductive waiters : list lab -> Z -> Prop :=
| w_nil : waiters [] 0
| w_zero ls l : (exists d pre, l = LTrigger d pre) \/ (exists w, l = LReset w) -> waiters (ls ++ [l]) 0
| w_cancel ls n : waiters ls n -> waiters (ls ++ [LCancel]) (Z.max 0 (n - 1))
| w_wait ls l n : waiters ls n -> has_to_wait ls l -> waiters (ls ++ [l]) (n + 1)
| w_other ls l n : waiters ls n -> ~ has_to_wait ls l ->
    match l with LTrigger _ _ | LReset _ | LCancel => False | _ => True end -> waiters (ls ++ [l]) n.
