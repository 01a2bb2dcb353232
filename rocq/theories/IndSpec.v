(** Specification of register item copies and indirect registers. *)
From Coq Require Import ZArith List Bool Arith.
From Verif Require Import Prelude IndModel.
Import ListNotations.
Local Open Scope nat_scope.

(** The items copied from since another object was last copied *)
Definition recent_step (l : list nat) (c : cop) : list nat :=
  match c with CClone s | CCopy _ s => s :: l | COther _ => [] | _ => l end.
Definition recent (cs : list cop) : list nat := fold_left recent_step cs [].

(** No call gives item [i] another value list. *)
Definition keeps_list (i : nat) (c : cop) : Prop :=
  match c with CList j _ => j <> i | CCopy j _ => j <> i | _ => True end.

(** What an item holds *)
Definition holds (h : heap) (i : nat) (k : access) (v : list Z) (m : option nat) (s : bool) (e : option nat) (r : nat) : Prop :=
  kind (items h i) = k /\ value h i = v /\ imap (items h i) = m /\ ok (items h i) = s /\ elem (items h i) = e /\ rest (items h i) = r.

(** The items named exist. *)
Definition known (h : heap) (c : cop) : Prop :=
  match c with
  | CClone s => s < nitem h
  | CCopy d s => d < nitem h /\ s < nitem h
  | CPoke i _ _ | CList i _ | CAttr i _ _ _ _ _ => i < nitem h
  | _ => True
  end.

Section Reach.
Context (size : nat) (bits : reg -> Z) (dflt : reg -> nat) (auto : bool).
(** States reached by calls of users and copies of items elsewhere *)
Inductive reach : sys -> Prop :=
| r_start m d : reach (Sys heap0 [] m d (fun _ => false))
| r_call s u s' st v : reach s -> ustep size bits dflt auto s u = Some (Finished s' st v) -> reach s'
| r_wait s u s' : reach s -> ustep size bits dflt auto s u = Some (Waits s') -> reach s'
| r_copy s c h : reach s -> known (hp s) c -> cstep (hp s) c = Some h -> reach (with_hp s h).
End Reach.

(** The calls that need the locks of the index and the data register *)
Definition needs_lock (u : ucall) : bool :=
  match u with UTab _ _ _ _ _ => true | UDirect Idx _ _ _ _ _ | UDirect Dat _ _ _ _ _ => true | _ => false end.
Definition resets_locks (u : ucall) : bool := match u with UReset Idx | UReset Dat => true | _ => false end.
(** Does not return and does nothing on the bus *)
Definition stuck_on (r : option result) (s : sys) : Prop := exists s', r = Some (Waits s') /\ bus s' = bus s.
Section Later.
Context (size : nat) (bits : reg -> Z) (dflt : reg -> nat) (auto : bool).
(** What can follow without a reset of the two registers *)
Inductive later (s : sys) : sys -> Prop :=
| l_now : later s s
| l_call s1 u s2 st v : later s s1 -> resets_locks u = false -> ustep size bits dflt auto s1 u = Some (Finished s2 st v) -> later s s2
| l_wait s1 u s2 : later s s1 -> resets_locks u = false -> ustep size bits dflt auto s1 u = Some (Waits s2) -> later s s2
| l_copy s1 c h : later s s1 -> cstep (hp s1) c = Some h -> later s (with_hp s1 h).
End Later.
(** The low [w] bits *)
Definition low (w z : Z) : Z := (z mod 2 ^ w)%Z.
(** None of the three locks is taken. *)
Definition free (s : sys) (n : nat) : Prop := held s Idx = false /\ held s Dat = false /\ held s (Tab n) = false.
(** The map of an access: the one asked for or the default one *)
Definition asked (dflt : reg -> nat) (n : nat) (m : option nat) : nat := match m with Some m => m | None => dflt (Tab n) end.
