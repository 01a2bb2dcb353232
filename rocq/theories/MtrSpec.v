(** Spec of the hierarchy of address maps, in terms of what was reported done. *)
From Coq Require Import List Bool Arith.
From Verif Require Import MtrModel.
Import ListNotations.

(** [c] is [m] or below it, by the successful calls of add_submap *)
Inductive under (tr : list out) (m : nat) : nat -> Prop :=
| under_refl : under tr m m
| under_sub p c : In (OJoined p c) tr -> under tr m p -> under tr m c.
Definition strictly (tr : list out) (m c : nat) : Prop := exists p, In (OJoined p c) tr /\ under tr m p.
(** the maps a register was added to, in order; the registers of a map; the submaps of a map *)
Definition maps_of (tr : list out) (r : nat) : list nat :=
  flat_map (fun o => match o with OAdded m r' => if Nat.eqb r' r then [m] else [] | _ => [] end) tr.
Definition regs_of (tr : list out) (m : nat) : list nat :=
  flat_map (fun o => match o with OAdded m' r => if Nat.eqb m' m then [r] else [] | _ => [] end) tr.
Definition subs_of (tr : list out) (p : nat) : list nat :=
  flat_map (fun o => match o with OJoined p' c => if Nat.eqb p' p then [c] else [] | _ => [] end) tr.
(** block [x] is properly below [y], by get_parent() *)
Inductive block_below (s : ms) (y : nat) : nat -> Prop :=
| bb_child x : b_par (bl s x) = Some y -> block_below s y x
| bb_down x p : b_par (bl s x) = Some p -> block_below s y p -> block_below s y x.
(** the first element of a list that has a property *)
Inductive first_with (P : nat -> Prop) : list nat -> option nat -> Prop :=
| fw_none l : (forall x, In x l -> ~ P x) -> first_with P l None
| fw_some a x b : (forall y, In y a -> ~ P y) -> P x -> first_with P (a ++ x :: b) (Some x).
(** the map used when a register and a map are given *)
Definition chosen (tr : list out) (r m : nat) (o : option nat) : Prop :=
  (In m (maps_of tr r) -> o = Some m) /\
  (~ In m (maps_of tr r) -> first_with (fun l => under tr m l) (maps_of tr r) o).
(** no map is given *)
Definition chosen_default (s : ms) (tr : list out) (r : nat) (o : option nat) : Prop :=
  match maps_of tr r with
  | [] => o = None
  | [l] => o = Some l
  | l :: _ =>
      match b_def (bl s (r_blk (rg s r))) with
      | None => o = Some l
      | Some d => exists o', chosen tr r d o' /\ o = match o' with Some x => Some x | None => Some l end
      end
  end.
(** Calls that initialise the addresses of map [l]: lock_model of a top block that is not
    locked, with [l] at or below one of its maps; add_submap accepted below a map of a locked
    block, with [l] in the same tree. [s], [tr]: before the call. *)
Definition initialises (s : ms) (tr : list out) (x : label) (l : nat) : Prop :=
  match x with
  | LLock b =>
      b < nb s /\ b_lock (bl s b) = false /\ b_par (bl s b) = None /\
      exists m, m < nm s /\ p_blk (mp s m) = b /\ under tr m l
  | LSub m c =>
      snd (step s x) = [OJoined m c] /\ b_lock (bl s (p_blk (mp s m))) = true /\
      exists top, (forall p, ~ In (OJoined p top) (tr ++ [OJoined m c])) /\
        under (tr ++ [OJoined m c]) top m /\ under (tr ++ [OJoined m c]) top l
  | _ => False
  end.
(** a call of set_check_on_read that reaches map [l] *)
Definition sets_check (s : ms) (tr : list out) (x : label) (l : nat) : Prop :=
  match x with LCheck m _ => m < nm s /\ under tr m l | _ => False end.
Definition sets_seqr (x : label) (m : nat) : Prop := match x with LSeqr m' (Some _) _ => m' = m | _ => False end.
Definition sets_auto (x : label) (m : nat) : Prop := match x with LAuto m' _ => m' = m | _ => False end.
