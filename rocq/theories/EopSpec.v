(** Spec of the end of a task phase. *)
From Coq Require Import ZArith List Bool Arith.
From Verif Require Import PhaseRunModel EopModel.
Import ListNotations.

Section Spec.
Context (self : nat) (has_obj : nat -> bool).
(** the situation after some steps, and what was announced so far *)
Context (after : list lab -> env) (outs : list lab -> list out).
(** nobody objects to the end of phase [q]; another phase has also begun to execute *)
Definition idle (ls : list lab) (q : nat) : Prop :=
  (has_obj q = true -> tot (after ls) q = 0) /\ (q <> self -> (EXECUTING <= st (after ls) q)%Z).
(** the phases [qs] were idle one after the other, beginning not before [a], the last one at [z] *)
Fixpoint in_turn (qs : list nat) (a z : list lab) : Prop :=
  match qs with
  | [] => a = z
  | q :: qs => exists b, idle (a ++ b) q /\ in_turn qs (a ++ b) z
  end.
(** from [a] to [z] READY_TO_END was not announced *)
Definition no_ready (a z : list lab) : Prop := exists b o, z = a ++ b /\ outs z = outs a ++ o /\ ~ In OReady o.
End Spec.
(** how often READY_TO_END was announced *)
Definition readies (o : list out) : nat := length (filter (fun x => match x with OReady => true | _ => false end) o).
(** since READY_TO_END was last announced the phase went back to EXECUTING *)
Definition back_since (o : list out) : Prop :=
  exists o1 o2, o = o1 ++ OReady :: o2 /\ ~ In OReady o2 /\ In OExec o2.
