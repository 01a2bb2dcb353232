(** Model of the end of a task phase: src/uvm/base/uvm_phase.py
    wait_for_self_and_siblings_to_drop 1549-1588, wait_for_criterion_for_end_phase and
    _wait_for_all_dropped 1633-1680, and the step before them (1360-1361); set_state 299-309,
    wait_for_state 896-926 with UVM_GTE. One phase [self] with its siblings (get_predecessors_
    for_successors and m_sync, 1561-1563; see SibProps.v for which these are); everything else
    may happen at any time: objections of the phase and the siblings (their totals at the top,
    ObjectionModel.v), the states of the siblings, other processes that take the event of a
    state change. When a call of wait_for of an objection returns is WfoModel.v's business: here
    at any time. Left out: traces, callbacks, exceptions. *)
From Coq Require Import ZArith List Bool Arith.
From Verif Require Import Prelude PhaseRunModel.
Import ListNotations.
Local Open Scope nat_scope.

(** [tot]: get_objection_total(top); [st]: m_state; [ev]: m_phase_set_state_event is set;
    [alld]: m_top_all_dropped of the own objection *)
Record env := Env { tot : nat -> nat; st : nat -> Z; ev : nat -> bool; alld : bool }.
(** where the process is suspended *)
Inductive pc :=
| AtNba                                            (* 1360 *)
| AtFirst                                          (* 1647 *)
| AtZero                                           (* 1564 *)
| AtSelf                                           (* 1573 *)
| AtState (q : nat) (rest : list nat) (need : bool) (* 1580 *)
| AtDrop (q : nat) (rest : list nat)               (* 1585 *)
| AtTop                                            (* 1663 *)
| AtTrav                                           (* 1673: phase_ready_to_end of the components *)
| AtNba2                                           (* 1677 *)
| AtEnd.
(** [again]: in the call of 1678, not of 1654; [count]: m_ready_to_end_count *)
Record ps := PS { en : env; at_ : pc; again : bool; count : nat }.
Inductive lab :=
| LRun                          (* the process goes on *)
| LTot (q v : nat)              (* the total of an objection changes *)
| LState (q : nat) (z : Z)      (* set_state of another phase *)
| LClear (q : nat)              (* another process that waits for the state takes the event *)
| LAll (b : bool).
Inductive out :=
| OExec                         (* set_state(EXECUTING) because of an objection, 1572, 1583 *)
| OReady                        (* set_state(READY_TO_END) and traverse, 1669-1675 *)
| OEnd.                         (* 1361 is over; ENDED follows without suspension *)

Section Phase.
Context (self : nat) (sibs : list nat) (has_obj : nat -> bool) (ovm : bool) (max_iter : nat).

Definition set_state (e : env) (q : nat) (z : Z) : env := Env (tot e) (upd (st e) q z) (upd (ev e) q true) (alld e).
Definition goto (s : ps) (p : pc) : ps := PS (en s) p (again s) (count s).
Definition objects (e : env) (q : nat) : bool := has_obj q && negb (tot e q =? 0).
(** the state is set back because of an objection that is then waited for *)
Definition back (s : ps) (p : pc) : ps * list out := (PS (set_state (en s) self EXECUTING) p (again s) (count s), [OExec]).

(** 1655, 1679-1680 *)
Definition finish (s : ps) : ps * list out :=
  if negb (again s) then (goto s AtTop, [])
  else if (st (en s) self =? EXECUTING)%Z && (count s <? max_iter) then (goto s AtTop, [])
  else (goto s AtEnd, [OEnd]).
(** 1566-1574, up to the first sibling *)
Definition pass (s : ps) : ps * list out :=
  if objects (en s) self then back s AtSelf
  else match sibs with [] => finish s | q :: r => (goto s (AtState q r false), []) end.
(** 1578, 1566: the next sibling, or the next round *)
Definition next (s : ps) (rest : list nat) (need : bool) : ps * list out :=
  match rest with
  | q :: r => (goto s (AtState q r need), [])
  | [] => if need then pass s else finish s
  end.
Definition resume (s : ps) : ps * list out :=
  match at_ s with
  | AtNba =>                                                          (* 1644-1646 *)
      if (negb (tot (en s) self =? 0) || ovm) && negb (alld (en s)) then (goto s AtFirst, []) else (goto s AtZero, [])
  | AtFirst => (goto s AtZero, [])
  | AtZero => pass s
  | AtSelf => next s sibs true
  | AtState q r need =>                                               (* 920-924 *)
      if ev (en s) q then
        let s := PS (Env (tot (en s)) (st (en s)) (upd (ev (en s)) q false) (alld (en s))) (at_ s) (again s) (count s) in
        if (EXECUTING <=? st (en s) q)%Z then
          if objects (en s) q then back s (AtDrop q r) else next s r need
        else (s, [])
      else (s, [])
  | AtDrop q r => next s r true
  | AtTop => (PS (set_state (en s) self READY_TO_END) AtTrav (again s) (S (count s)), [OReady])
  | AtTrav => (goto s AtNba2, [])
  | AtNba2 => (PS (en s) AtZero true (count s), [])
  | AtEnd => (s, [])
  end.
Definition with_env (s : ps) (e : env) : ps := PS e (at_ s) (again s) (count s).
Definition step (s : ps) (l : lab) : ps * list out :=
  let e := en s in
  match l with
  | LRun => resume s
  | LTot q v => (with_env s (Env (upd (tot e) q v) (st e) (ev e) (alld e)), [])
  | LState q z => if q =? self then (s, []) else (with_env s (set_state e q z), [])
  | LClear q => (with_env s (Env (tot e) (st e) (upd (ev e) q false) (alld e)), [])
  | LAll b => (with_env s (Env (tot e) (st e) (ev e) b), [])
  end.
(** The phase was set to EXECUTING (1348) and its count to 0 (1329). *)
Definition start (e : env) : ps := PS (set_state e self EXECUTING) AtNba false 0.
Definition run (e : env) (ls : list lab) : ps * list out := run_machine step (start e) ls.
End Phase.
