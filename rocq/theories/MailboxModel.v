(** Model of src/uvm/base/uvm_mailbox.py: UVMMailbox, with arbitrarily many
    cocotb coroutines calling it.

    What is simplified: debug printing is dropped; the optional output list
    argument of get/peek is represented by the emitted output; killing a
    suspended coroutine is not modelled. cocotb's [Event] is modelled by a flag
    and the set of coroutines suspended on it: [wait] continues at once when the
    flag is set, [set] sets the flag and makes every suspended coroutine
    runnable, [clear] resets the flag (cocotb.triggers.Event). A coroutine runs
    without interruption between two suspensions; the scheduler may resume
    runnable coroutines in any order. *)
From Coq Require Import ZArith List Bool Arith.
From Verif Require Import Prelude.
Import ListNotations.

Section Mailbox.
Context {A : Type}.

(** Where a coroutine is. [WaitX]: suspended at the [await] of X, not runnable;
    [WokenX]: its event was set, it is runnable and will continue after the
    [await]. *)
Inductive pstate : Type :=
| Idle
| WaitPut (x : A) | WokenPut (x : A)
| WaitGet | WokenGet
| WaitPeek | WokenPeek.

(** uvm_mailbox.py:40-46 UVMMailbox.__init__ (max_size, m_queue, m_read_event,
    m_write_event), plus the coroutines. *)
Record mbox : Type := mkMbox {
  max_size : Z;
  queue : list A;
  read_flag : bool;
  write_flag : bool;
  procs : nat -> pstate
}.

Definition mb_init (n : Z) : mbox := mkMbox n [] false false (fun _ => Idle).

(** Observable effects. [OOffered] is the call of put/try_put with an
    item, [ORejected]/[OTryFail] a False return of try_put/try_get/try_peek,
    [ORaise] a Python exception.
    [OSpin] marks an [await] that would not suspend (event already set) inside a
    retry loop, i.e. a busy loop that never yields to other coroutines. *)
Inductive mout : Type :=
| OOffered (pid : nat) (x : A)
| ORejected (pid : nat) (x : A)
| OAccepted (pid : nat) (x : A)
| ODelivered (pid : nat) (x : A)
| OPeeked (pid : nat) (r : option A)
| OTryFail (pid : nat)
| OSpin (pid : nat)
| ORaise (pid : nat).

(** uvm_mailbox.py:146-147 can_get *)
Definition can_get (m : mbox) : bool :=
  (0 <? Z.of_nat (length (queue m)))%Z.

(** uvm_mailbox.py:149-152 can_put *)
Definition can_put (m : mbox) : bool :=
  if (max_size m <=? 0)%Z then true
  else (Z.of_nat (length (queue m)) <? max_size m)%Z.

(** uvm_mailbox.py:154-155 num: [return self.m_queue.size() > 0], a bool, whose
    value as an int is 0 or 1. *)
Definition num (m : mbox) : Z := if can_get m then 1%Z else 0%Z.

(** cocotb Event.set on m_write_event / m_read_event: flag on, all waiters of
    that event become runnable. *)
Definition wake_write (s : pstate) : pstate :=
  match s with WaitGet => WokenGet | WaitPeek => WokenPeek | _ => s end.
Definition wake_read (s : pstate) : pstate :=
  match s with WaitPut x => WokenPut x | _ => s end.

Definition set_write (m : mbox) : mbox :=
  mkMbox (max_size m) (queue m) (read_flag m) true (fun p => wake_write (procs m p)).
Definition set_read (m : mbox) : mbox :=
  mkMbox (max_size m) (queue m) true (write_flag m) (fun p => wake_read (procs m p)).
Definition clear_write (m : mbox) : mbox :=
  mkMbox (max_size m) (queue m) (read_flag m) false (procs m).
Definition clear_read (m : mbox) : mbox :=
  mkMbox (max_size m) (queue m) false (write_flag m) (procs m).

Definition set_queue (m : mbox) (q : list A) : mbox :=
  mkMbox (max_size m) q (read_flag m) (write_flag m) (procs m).
Definition set_proc (m : mbox) (p : nat) (s : pstate) : mbox :=
  mkMbox (max_size m) (queue m) (read_flag m) (write_flag m) (upd (procs m) p s).

(** uvm_mailbox.py:58-61: push_back and m_write_event.set(), end of put. *)
Definition put_tail (m : mbox) (p : nat) (x : A) : mbox * list mout :=
  (set_proc (set_write (set_queue m (queue m ++ [x]))) p Idle, [OAccepted p x]).

(** uvm_mailbox.py:51-61 put, from the test of the loop condition. After
    [m_read_event.clear()] the flag is off, so [wait] suspends. *)
Definition put_loop (m : mbox) (p : nat) (x : A) : mbox * list mout :=
  if can_put m then put_tail m p x
  else
    let m1 := clear_read m in
    if read_flag m1 then (m1, [OSpin p])
    else (set_proc m1 p (WaitPut x), []).

(** uvm_mailbox.py:75-83 end of get: line 76 raises on an empty queue;
    pop_front, m_read_event.set(). *)
Definition get_tail (m : mbox) (p : nat) : mbox * list mout :=
  match queue m with
  | x :: q => (set_proc (set_read (set_queue m q)) p Idle, [ODelivered p x])
  | [] => (m, [ORaise p])
  end.

(** uvm_mailbox.py:65-83 get, from the test of the loop condition. *)
Definition get_loop (m : mbox) (p : nat) : mbox * list mout :=
  if can_get m then get_tail m p
  else
    let m1 := clear_write m in
    if write_flag m1 then (m1, [OSpin p])
    else (set_proc m1 p WaitGet, []).

(** uvm_mailbox.py:94-97 end of peek: [front()] is None on an empty queue
    (uvm_queue.py front). *)
Definition peek_tail (m : mbox) (p : nat) : mbox * list mout :=
  (set_proc m p Idle, [OPeeked p (hd_error (queue m))]).

(** uvm_mailbox.py:88-97 peek: [if], not [while]. *)
Definition peek_start (m : mbox) (p : nat) : mbox * list mout :=
  if can_get m then peek_tail m p
  else
    let m1 := clear_write m in
    if write_flag m1 then peek_tail m1 p
    else (set_proc m1 p WaitPeek, []).

(** uvm_mailbox.py:99-108 try_put *)
Definition try_put (m : mbox) (p : nat) (x : A) : mbox * list mout :=
  if can_put m then
    (set_write (set_queue m (queue m ++ [x])), [OAccepted p x])
  else (m, [ORejected p x]).

(** uvm_mailbox.py:110-126 try_get *)
Definition try_get (m : mbox) (p : nat) : mbox * list mout :=
  if can_get m then
    match queue m with
    | x :: q => (set_read (set_queue m q), [ODelivered p x])
    | [] => (m, [ORaise p])
    end
  else (m, [OTryFail p]).

(** uvm_mailbox.py:128-144 try_peek *)
Definition try_peek (m : mbox) (p : nat) : mbox * list mout :=
  if can_get m then (m, [OPeeked p (hd_error (queue m))])
  else (m, [OTryFail p]).

Inductive mop : Type :=
| Put (x : A) | Get | Peek | TryPut (x : A) | TryGet | TryPeek.

(** A schedule is a list of labels: an idle process calls an operation, or a
    runnable one is resumed. Labels that are not enabled do nothing. *)
Inductive mlabel : Type :=
| Call (pid : nat) (op : mop)
| Resume (pid : nat).

Definition mstep (m : mbox) (l : mlabel) : mbox * list mout :=
  match l with
  | Call p op =>
      match procs m p with
      | Idle =>
          match op with
          | Put x => let '(m', o) := put_loop m p x in (m', OOffered p x :: o)
          | Get => get_loop m p
          | Peek => peek_start m p
          | TryPut x => let '(m', o) := try_put m p x in (m', OOffered p x :: o)
          | TryGet => try_get m p
          | TryPeek => try_peek m p
          end
      | _ => (m, [])
      end
  | Resume p =>
      match procs m p with
      (* uvm_mailbox.py:55-56: clear, re-test, loop *)
      | WokenPut x => put_loop (clear_read m) p x
      (* uvm_mailbox.py:70-72 *)
      | WokenGet => get_loop (clear_write m) p
      (* uvm_mailbox.py:92 *)
      | WokenPeek => peek_tail (clear_write m) p
      | _ => (m, [])
      end
  end.

Definition mrun (n : Z) (ls : list mlabel) : mbox * list mout :=
  run_machine mstep (mb_init n) ls.

End Mailbox.

Arguments pstate : clear implicits.
Arguments mbox : clear implicits.
Arguments mout : clear implicits.
Arguments mop : clear implicits.
Arguments mlabel : clear implicits.
