(** Model of the search of an address map by name: src/uvm/reg/uvm_reg_block.py
    get_maps 462-464 and get_map_by_name 563-593, on the hierarchy of MtrModel
    (get_submaps 934-957 of uvm_reg_map.py). Names are never changed. *)
From Coq Require Import List Bool String.
From Verif Require Import MtrModel.
Import ListNotations.

Section Names.
Context (name : nat -> string).
Definition named (n : string) (m : nat) : bool := String.eqb (name m) n.
(** 584-590: the submaps of each map in turn *)
Fixpoint in_submaps (s : ms) (n : string) (maps : list nat) : option nat :=
  match maps with
  | [] => None
  | m :: maps => match find (named n) (get_submaps s m) with Some x => Some x | None => in_submaps s n maps end
  end.
(** The result and whether there is a warning (592) *)
Definition get_map_by_name (s : ms) (b : nat) (n : string) : option nat * bool :=
  let maps := b_maps (bl s b) in
  match find (named n) maps with                                   (* 580-582 *)
  | Some m => (Some m, false)
  | None => match in_submaps s n maps with Some x => (Some x, false) | None => (None, true) end
  end.
End Names.
