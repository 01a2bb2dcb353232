(** Spec of translation sequences: what the trace of an execution shows. *)
From Coq Require Import List Bool Arith.
From Verif Require Import XltModel.
Import ListNotations.

(** the accesses chosen, sent, translated (successfully or not) and returned, in order *)
Definition chosen (o : list out) : list nat := flat_map (fun e => match e with OGrant a => [a] | _ => [] end) o.
Definition sent (o : list out) : list nat := flat_map (fun e => match e with OSent a => [a] | _ => [] end) o.
Definition translated (o : list out) : list nat := flat_map (fun e => match e with OBus _ a _ _ => [a] | _ => [] end) o.
Definition returned (o : list out) : list nat := flat_map (fun e => match e with ORet a _ _ => [a] | _ => [] end) o.
(** Only translation sequence [t] runs. *)
Definition by_one (t : nat) (l : lab) : Prop :=
  match l with LRun u | LSel u _ | LBus u _ => u = t | _ => True end.
Definition asked (ls : list lab) (a : nat) : Prop := In (LReq a) ls.
