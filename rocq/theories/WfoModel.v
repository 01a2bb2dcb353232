(** Model of UVMObjection.wait_for: src/uvm/base/uvm_objection.py wait_for 983-1001,
    UVMObjectionEvents 54-59, and the places that set the events: raised 918-919, dropped
    935-936, all_dropped 956-957, clear 765-766. An event of cocotb stays set; a process that
    waits for a set event goes on when it is its turn, one that waits for an event not yet set
    goes on after it is set. When objections reach an object is ObjectionModel.v's business:
    here it happens at any time. *)
From Coq Require Import List Bool Arith.
From Verif Require Import Prelude.
Import ListNotations.

(** UVM_RAISED, UVM_DROPPED, UVM_ALL_DROPPED *)
Inductive kind := KRaised | KDropped | KAll.
Definition kind_dec (a b : kind) : {a = b} + {a <> b}.
Proof. decide equality. Defined.
(** 54-59 *)
Record events := Ev { waiters : nat; is_set : kind -> bool }.
Definition new_events : events := Ev 0 (fun _ => false).
Inductive proc :=
| PFree                          (* not in wait_for *)
| PWait (o : nat) (k : kind)     (* suspended at 992, 994 or 996 *)
| PReady (o : nat) (k : kind)    (* the event is set; resumes when it is its turn *)
| PKilled.
Record ws := WS { ev : nat -> option events; pr : nat -> proc }.
Inductive lab :=
| LWait (p o : nat) (k : kind)   (* wait_for(k, o); obj=None is the top, 984-985 *)
| LFire (o : nat) (k : kind)     (* raised, dropped, all_dropped of [o]; clear for the top *)
| LRun (p : nat)
| LKill (p : nat).
Inductive out :=
| OReturn (p : nat)
| OKeyError (p : nat).

(** 987-996 *)
Definition enter (s : ws) (p o : nat) (k : kind) : ws :=
  let e := match ev s o with Some e => e | None => new_events end in
  let e := Ev (S (waiters e)) (is_set e) in
  WS (upd (ev s) o (Some e)) (upd (pr s) p (if is_set e k then PReady o k else PWait o k)).
(** 998-1001 *)
Definition leave (s : ws) (p o : nat) : ws * list out :=
  match ev s o with
  | None => (WS (ev s) (upd (pr s) p PFree), [OKeyError p])
  | Some e =>
      let n := waiters e - 1 in
      (WS (upd (ev s) o (if n =? 0 then None else Some (Ev n (is_set e)))) (upd (pr s) p PFree), [OReturn p])
  end.
Definition fire (s : ws) (o : nat) (k : kind) : ws :=
  match ev s o with
  | None => s
  | Some e =>
      WS (upd (ev s) o (Some (Ev (waiters e) (fun k' => if kind_dec k' k then true else is_set e k'))))
         (fun p => match pr s p with
                   | PWait o' k' => if (o' =? o) && (if kind_dec k' k then true else false) then PReady o' k' else PWait o' k'
                   | x => x
                   end)
  end.
Definition step (s : ws) (l : lab) : ws * list out :=
  match l with
  | LWait p o k => match pr s p with PFree => (enter s p o k, []) | _ => (s, []) end
  | LFire o k => (fire s o k, [])
  | LRun p => match pr s p with PReady o _ => leave s p o | _ => (s, []) end
  | LKill p => (WS (ev s) (upd (pr s) p PKilled), [])
  end.
Definition init : ws := WS (fun _ => None) (fun _ => PFree).
Definition run (ls : list lab) : ws * list out := run_machine step init ls.
