(** Model of src/uvm/base/uvm_event.py (UVMEventBase 35-232, UVMEvent 265-397).

    The cocotb Event used there: set() marks it fired and makes every process
    pending on it runnable; wait() on a fired event returns at the process's next
    turn; clear() unmarks it. The processes are numbers; one step is what one process
    does between two awaits. Times and printing are not modelled, nor set/wait (73-86),
    which have an event of their own. *)
From Coq Require Import ZArith List Bool.
From Verif Require Import Prelude.
Import ListNotations.
Open Scope Z_scope.

(** Where a process is. *)
Inductive pst :=
| Idle
| Trig (e : nat)        (* 147, 161: pending on event object e *)
| TrigGo                (* ... and made runnable *)
| OnGo                  (* 107-109: was on already *)
| On (go : bool)        (* 111: pending on, or woken by, a change *)
| Off (go : bool).      (* 132 *)

Record event := Ev {
  cur : nat;                (* which object m_event is *)
  fired : nat -> bool;      (* that object is set *)
  on : bool;
  vc : bool;                (* m_value_changed_event is set *)
  nwait : Z;                (* num_waiters *)
  data : option nat;        (* trigger_data *)
  cbs : list nat;           (* callbacks *)
  ps : nat -> pst
}.
Definition event0 : event := Ev 0 (fun _ => false) false false 0 None [] (fun _ => Idle).

Inductive out :=
| OTriggered (d : option nat)         (* the trigger took effect *)
| OSkipped
| OPre (c : nat)                      (* pre_trigger called *)
| OPost (c : nat)
| OReset
| ORet (p : nat)                      (* a wait call returned *)
| OWarn | OExn.

(** cocotb Event.set on m_event, and on m_value_changed_event. *)
Definition wake_trig (e : nat) (f : nat -> pst) : nat -> pst :=
  fun p => match f p with Trig e' => if Nat.eqb e' e then TrigGo else Trig e' | s => s end.
Definition wake_vc (f : nat -> pst) : nat -> pst :=
  fun p => match f p with On _ => On true | Off _ => Off true | s => s end.

(** 62-71 with key "on". *)
Definition set_on (y : event) (b : bool) : event :=
  Ev (cur y) (fired y) b true (nwait y) (data y) (cbs y) (wake_vc (ps y)).

(** 319-345, callbacks: [pre c] is what pre_trigger of c returns, None standing for
    Python's None. 334 is outside the loop, so only the last one is called; adding to
    False gives an int, which is never the object False. *)
Definition trigger (y : event) (d : option nat) (pre : nat -> option Z) : event * list out :=
  match rev (cbs y) with
  | [] =>
      let y1 := Ev (cur y) (upd (fired y) (cur y) true) (on y) (vc y) 0 d (cbs y)
                   (wake_trig (cur y) (ps y)) in
      (set_on y1 true, [OTriggered d])
  | c :: _ =>
      match pre c with
      | None => (y, [OPre c; OExn])
      | Some _ => (y, [OPre c; OSkipped])
      end
  end.

(** 195-210: a new event object replaces the old one. *)
Definition reset (y : event) (wakeup : bool) : event * list out :=
  let f := if wakeup then wake_trig (cur y) (ps y) else ps y in
  (set_on (Ev (S (cur y)) (fired y) (on y) (vc y) 0 (data y) (cbs y) f) false, [OReset]).

Definition set_p (y : event) (p : nat) (s : pst) (n : Z) : event :=
  Ev (cur y) (fired y) (on y) (vc y) n (data y) (cbs y) (upd (ps y) p s).

Inductive lab :=
| LTrigger (d : option nat) (pre : nat -> option Z)
| LReset (wakeup : bool)
| LCancel
| LWaitOn (p : nat) (delta : bool)
| LWaitOff (p : nat) (delta : bool)
| LWaitTrigger (p : nat)
| LWaitPtrigger (p : nat)
| LRun (p : nat)                       (* the process gets its turn *)
| LAdd (c : nat) (append : bool)
| LDelete (c : nat).

Fixpoint del1 (c : nat) (l : list nat) : list nat :=
  match l with [] => [] | x :: l' => if Nat.eqb x c then l' else x :: del1 c l' end.

Definition step (y : event) (l : lab) : event * list out :=
  match l with
  | LTrigger d pre => trigger y d pre
  | LReset w => reset y w
  | LCancel =>                                   (* 213-221 *)
      (Ev (cur y) (fired y) (on y) (vc y) (if 0 <? nwait y then nwait y - 1 else nwait y)
          (data y) (cbs y) (ps y), [])
  | LWaitOn p delta =>                           (* 89-111 *)
      match ps y p with
      | Idle => if on y then (set_p y p OnGo (nwait y), [])
                else (set_p y p (On (vc y)) (nwait y + 1), [])
      | _ => (y, [])
      end
  | LWaitOff p delta =>                          (* 114-132 *)
      match ps y p with
      | Idle => if on y then (set_p y p (Off (vc y)) (nwait y + 1), [])
                else if delta then (set_p y p OnGo (nwait y), []) else (y, [ORet p])
      | _ => (y, [])
      end
  | LWaitTrigger p =>                            (* 135-148 *)
      match ps y p with
      | Idle => (set_p y p (if fired y (cur y) then TrigGo else Trig (cur y)) (nwait y + 1), [])
      | _ => (y, [])
      end
  | LWaitPtrigger p =>                           (* 151-162 *)
      match ps y p with
      | Idle => if fired y (cur y) then (y, [ORet p])
                else (set_p y p (Trig (cur y)) (nwait y + 1), [])
      | _ => (y, [])
      end
  | LRun p =>
      match ps y p with
      | TrigGo =>                                (* 148, 162 clear the current object *)
          (Ev (cur y) (upd (fired y) (cur y) false) (on y) (vc y) (nwait y) (data y) (cbs y)
              (upd (ps y) p Idle), [ORet p])
      | OnGo => (set_p y p Idle (nwait y), [ORet p])
      | On true =>                               (* sv.py 571-580 *)
          if on y
          then (Ev (cur y) (fired y) (on y) false (nwait y) (data y) (cbs y) (upd (ps y) p Idle), [ORet p])
          else (Ev (cur y) (fired y) (on y) false (nwait y) (data y) (cbs y) (upd (ps y) p (On false)), [])
      | Off true =>
          if on y
          then (Ev (cur y) (fired y) (on y) false (nwait y) (data y) (cbs y) (upd (ps y) p (Off false)), [])
          else (Ev (cur y) (fired y) (on y) false (nwait y) (data y) (cbs y) (upd (ps y) p Idle), [ORet p])
      | _ => (y, [])
      end
  | LAdd c append =>                             (* 361-379 *)
      if existsb (Nat.eqb c) (cbs y) then (y, [OWarn])
      else if append
      then (Ev (cur y) (fired y) (on y) (vc y) (nwait y) (data y) (cbs y ++ [c]) (ps y), [])
      else match cbs y with                      (* uvm_queue.py 160: 0 >= size *)
           | [] => (y, [OWarn])
           | _ => (Ev (cur y) (fired y) (on y) (vc y) (nwait y) (data y) (c :: cbs y) (ps y), [])
           end
  | LDelete c =>                                 (* 382-393 *)
      if existsb (Nat.eqb c) (cbs y)
      then (Ev (cur y) (fired y) (on y) (vc y) (nwait y) (data y) (del1 c (cbs y)) (ps y), [])
      else (y, [OWarn])
  end.
