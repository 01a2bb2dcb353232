(** Model of src/uvm/base/sv.py wait(cond, ev) (571-580), with which processes wait all over the
    library, and of src/uvm/base/uvm_resource.py wait_modified (315-319), set_read_only,
    set_read_write (277-290) and write (789-825).

    A cocotb Event: set() makes all processes in ev.wait() runnable and remembers the set until
    clear(); ev.wait() on a set event comes back as well, but only after the scheduler has run.
    A process is run by the scheduler (label Run) up to its next await; which one is run when, is
    arbitrary. The condition and what the caller does at once after wait() are functions of the
    state they look at. *)
From Coq Require Import List Bool Arith.
From Verif Require Import Prelude.
Import ListNotations.
Local Open Scope nat_scope.

Section Wait.
Context {V : Type}.
(** A process in ev.wait(): woken or not, the condition, what follows wait() *)
Record proc := Pr { woken : bool; cond : V -> bool; next : V -> V }.
(** fired: Event.fired *)
Record st := St { val : V; fired : bool; procs : nat -> option proc }.
Definition st0 (v : V) : st := St v false (fun _ => None).
Inductive lab :=
| Act (f : V -> V * bool)                      (* anything else; true: it calls ev.set() at the end *)
| Clear                                        (* ev.clear() *)
| Call (p : nat) (c : V -> bool) (g : V -> V)  (* p calls wait(c, ev), then does g *)
| Run (p : nat).                               (* the scheduler runs p *)
Definition wake (o : option proc) : option proc := match o with Some a => Some (Pr true (cond a) (next a)) | None => None end.
(** Outputs: the process that comes back from wait() *)
Definition step (y : st) (l : lab) : st * list nat :=
  match l with
  | Act f => let (v, b) := f (val y) in (if b then St v true (fun p => wake (procs y p)) else St v (fired y) (procs y), [])
  | Clear => (St (val y) false (procs y), [])
  | Call p c g =>
      match procs y p with
      | Some _ => (y, [])
      | None =>
          if c (val y) then (St (g (val y)) (fired y) (procs y), [p])                       (* 576-577 *)
          else (St (val y) (fired y) (upd (procs y) p (Some (Pr (fired y) c g))), [])       (* 579 *)
      end
  | Run p =>
      match procs y p with
      | Some a =>
          if woken a then                                                                   (* 580, 575 *)
            if cond a (val y) then (St (next a (val y)) false (upd (procs y) p None), [p])
            else (St (val y) false (upd (procs y) p (Some (Pr false (cond a) (next a)))), [])
          else (y, [])
      | None => (y, [])
      end
  end.
(** After the calls of a list whose newest is the first *)
Fixpoint after (v : V) (h : list lab) : st := match h with [] => st0 v | l :: h => fst (step (after v h) l) end.
Definition says (v : V) (h : list lab) (l : lab) : list nat := snd (step (after v h) l).
End Wait.
Arguments proc : clear implicits.
Arguments st : clear implicits.
Arguments lab : clear implicits.

(** *** Resources *)
Section Resource.
Context {T : Type} (eqb : T -> T -> bool).   (* == of Python *)
Record res := Res { rval : T; modified : bool; ro : bool }.
Inductive rlab := Write (t : T) | ReadOnly (b : bool) | WaitMod (p : nat) | Go (p : nat).
(** 808-825; the boolean: event_modified.set() *)
Definition write (t : T) (r : res) : res * bool :=
  if ro r then (r, false) else if eqb (rval r) t then (r, false) else (Res t true (ro r), true).
Definition is_modified (r : res) : bool := modified r.
Definition unmodify (r : res) : res := Res (rval r) false (ro r).
Definition lab_of (l : rlab) : lab res :=
  match l with
  | Write t => Act (write t)
  | ReadOnly b => Act (fun r => (Res (rval r) (modified r) b, false))
  | WaitMod p => Call p is_modified unmodify
  | Go p => Run p
  end.
Definition rafter (t0 : T) (h : list rlab) : st res := after (Res t0 false false) (map lab_of h).
Definition rsays (t0 : T) (h : list rlab) (l : rlab) : list nat := snd (step (rafter t0 h) (lab_of l)).
(** What read() answers *)
Definition rread (t0 : T) (h : list rlab) : T := rval (val (rafter t0 h)).
End Resource.
Arguments res : clear implicits.
Arguments rlab : clear implicits.
