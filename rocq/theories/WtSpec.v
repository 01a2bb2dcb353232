(** Specification for wait(cond, ev) and wait_modified. The newest call is the first of a list. *)
From Coq Require Import List Bool Arith.
From Verif Require Import Prelude WtModel.
Import ListNotations.
Local Open Scope nat_scope.

Section Wait.
Context {V : Type} (v0 : V).
(** Process p is in wait(c, ev), to do g afterwards. *)
Fixpoint waits (h : list (lab V)) (p : nat) : option ((V -> bool) * (V -> V)) :=
  match h with
  | [] => None
  | l :: h' =>
      match l with
      | Call q c g => if q =? p then match waits h' p with Some w => Some w | None => if existsb (Nat.eqb p) (says v0 h' l) then None else Some (c, g) end else waits h' p
      | Run q => if (q =? p) && existsb (Nat.eqb p) (says v0 h' l) then None else waits h' p
      | _ => waits h' p
      end
  end.
(** The state that conditions look at *)
Fixpoint value (h : list (lab V)) : V :=
  match h with
  | [] => v0
  | l :: h' =>
      let v := value h' in
      match l with
      | Act f => fst (f v)
      | Clear => v
      | Call p c g => match says v0 h' l with [] => v | _ => g v end
      | Run p => match says v0 h' l with [] => v | _ => match waits h' p with Some (_, g) => g v | None => v end end
      end
  end.
(** Whatever makes a condition c true sets the event; in particular what callers do after wait() makes
    no such condition true. *)
Definition announced (c : V -> bool) (l : lab V) : Prop :=
  match l with
  | Act f => forall v, c v = false -> c (fst (f v)) = true -> snd (f v) = true
  | Call _ _ g => forall v, c v = false -> c (g v) = false
  | _ => True
  end.
End Wait.

Section Resource.
Context {T : Type} (eqb : T -> T -> bool) (t0 : T).
Fixpoint read_only (h : list (rlab T)) : bool := match h with [] => false | ReadOnly b :: _ => b | _ :: h => read_only h end.
Fixpoint content (h : list (rlab T)) : T :=
  match h with
  | [] => t0
  | Write t :: h => if read_only h || eqb (content h) t then content h else t
  | _ :: h => content h
  end.
(** The call changes the content *)
Definition changes (h : list (rlab T)) (l : rlab T) : bool := match l with Write t => negb (read_only h) && negb (eqb (content h) t) | _ => false end.
(** Whether the content has changed since the last return of a wait_modified, and which processes wait:
    nothing here knows of events. *)
Fixpoint news (h : list (rlab T)) : bool * (nat -> bool) :=
  match h with
  | [] => (false, fun _ => false)
  | l :: h =>
      let (fresh, wt) := news h in
      match l with
      | WaitMod p => if wt p then (fresh, wt) else if fresh then (false, wt) else (false, upd wt p true)
      | Go p => if wt p && fresh then (false, upd wt p false) else (fresh, wt)
      | _ => (changes h l || fresh, wt)
      end
  end.
(** Who returns from wait_modified in the last call *)
Definition returns (h : list (rlab T)) (l : rlab T) : list nat :=
  let (fresh, wt) := news h in
  match l with
  | WaitMod p => if negb (wt p) && fresh then [p] else []
  | Go p => if wt p && fresh then [p] else []
  | _ => []
  end.
(** How many calls of a history changed the content *)
Fixpoint n_changes (h : list (rlab T)) : nat := match h with [] => 0 | l :: h => (if changes h l then 1 else 0) + n_changes h end.
End Resource.
