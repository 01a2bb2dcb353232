(** Model of register accesses going through a bus sequencer and a driver:
    src/uvm/reg/uvm_reg_map.py do_write, do_read, do_bus_write and do_bus_read
    (1317-1694) as far as sequences and responses are concerned, called from
    src/uvm/reg/uvm_reg.py write() and read() (852-965) of any number of processes.

    The data, addresses and the effect of a failing transfer on the value are in
    RegMapModel.v, arbitration and the handshake with the driver in SeqrModel.v; here the
    driver finishes pending transfers in any order. Not modelled: user front doors, back
    doors and callbacks, adapter.parent_sequence, a map without adapter, response handlers. *)
From Coq Require Import ZArith List Bool Arith.
From Verif Require Import Prelude.
Import ListNotations.
Local Open Scope nat_scope.

Inductive kind := Wr | Rd.
(** A sequence: one of the user's, or a "default_parent_seq" (1638, 1681), numbered in the
    order of creation. *)
Inductive sq := User (n : nat) | Dflt (n : nat).
Definition sq_eqb (a b : sq) : bool :=
  match a, b with User n, User m => Nat.eqb n m | Dflt n, Dflt m => Nat.eqb n m | _, _ => false end.

(** An access: register, direction, the sequence used, whether do_write or do_read made it
    (tmp_parent_seq is not None), and the number of bus words still to transfer. *)
Record acc := Acc { ar : nat; ak : kind; aseq : sq; atmp : bool; aleft : nat }.
Inductive pst :=
| Idle
| Lock (r : nat) (k : kind) (q : option nat) (n : nat)   (* in XatomicX(1), uvm_reg.py 897, 962 *)
| Bus (a : acc)       (* in start_item or finish_item or wait_on, 1423-1429, 1572-1578 *)
| Resp (a : acc).     (* in get_base_response, 1435, 1584 *)

Record bus := MkBus {
  proc : nat -> pst;
  free : nat -> bool;       (* the register's m_atomic has its key *)
  regs : list sq;           (* reg_sequences of the bus sequencer *)
  seen : sq -> bool;        (* the sequence has an id for this sequencer *)
  rq : sq -> nat;           (* size of response_queue *)
  rdepth : sq -> Z;         (* response_queue_depth *)
  quiet : sq -> bool;       (* response_queue_error_report_disabled *)
  fresh : nat
}.
Definition bus0 : bus := MkBus (fun _ => Idle) (fun _ => true) [] (fun _ => false) (fun _ => 0)
  (fun _ => 8%Z) (fun _ => false) 0.
Definition updq {A} (f : sq -> A) (q : sq) (v : A) : sq -> A := fun x => if sq_eqb x q then v else f x.
Definition set_proc (s : bus) p v := MkBus (upd (proc s) p v) (free s) (regs s) (seen s) (rq s) (rdepth s) (quiet s) (fresh s).
Definition set_free (s : bus) r b := MkBus (proc s) (upd (free s) r b) (regs s) (seen s) (rq s) (rdepth s) (quiet s) (fresh s).
Definition set_regs (s : bus) l v := MkBus (proc s) (free s) l v (rq s) (rdepth s) (quiet s) (fresh s).
Definition set_rq (s : bus) v := MkBus (proc s) (free s) (regs s) (seen s) v (rdepth s) (quiet s) (fresh s).
Definition set_opts (s : bus) d q := MkBus (proc s) (free s) (regs s) (seen s) (rq s) d q (fresh s).
Definition set_fresh (s : bus) n := MkBus (proc s) (free s) (regs s) (seen s) (rq s) (rdepth s) (quiet s) n.

Inductive bout :=
| Began (p r : nat) (k : kind) (q : sq)   (* the access has the register and starts its first transfer *)
| Moved (p r : nat) (q : sq) (ok rsp : bool)  (* the driver finished a bus transfer, with a response or not *)
| Done (p r : nat) (k : kind) (q : sq) (ok : bool)   (* write() or read() returned this status *)
| Raised (p r : nat) (k : kind) (q : sq)  (* write() or read() raised AttributeError *)
| Queued (q : sq) | Overflow (q : sq) | Unknown (q : sq).  (* what became of a response *)

Inductive blab :=
| Call (p r : nat) (k : kind) (q : option nat) (n : nat)  (* write() or read() of register r, n+1 bus words *)
| Take (p : nat)                       (* the waiting process retests the register's lock *)
| Xfer (p : nat) (ok rsp : bool)       (* the driver finishes p's transfer, with a response or without *)
| Wake (p : nat)                       (* a process in get_base_response retests *)
| Put (q : sq)                         (* a response for q through put_response or the response port *)
| Fetch (q : sq)                       (* the user takes a response of q with get_response *)
| End (n : nat)                        (* m_sequence_exiting of a user sequence *)
| Reset (r : nat)                      (* reset() of a register *)
| Depth (q : nat) (d : Z) | Quiet (q : nat) (b : bool).  (* set_response_queue_depth, ..._error_report_disabled *)

Section Bus.
Context (provides : bool).   (* adapter.provides_responses *)

(** m_register_sequence (uvm_sequencer_base.py 1023-1037): only a sequence without id. *)
Definition register (s : bus) (q : sq) : bus :=
  if seen s q then s else set_regs s (regs s ++ [q]) (updq (seen s) q true).
(** remove_sequence_from_queues, 977 *)
Definition unregister (s : bus) (q : sq) : bus := set_regs s (filter (fun x => negb (sq_eqb x q)) (regs s)) (seen s).

(** uvm_sequencer_param_base.py 294-324, uvm_sequence_base.py 1228-1240 *)
Definition deliver (s : bus) (q : sq) : bus * list bout :=
  if existsb (sq_eqb q) (regs s) then
    if ((rdepth s q =? -1) || (Z.of_nat (rq s q) <? rdepth s q))%Z
    then (set_rq s (updq (rq s) q (S (rq s q))), [Queued q])
    else (s, if quiet s q then [] else [Overflow q])
  else (s, [Unknown q]).

(** 1621-1639, 1665-1682, then wait_for_grant registers the sequence. *)
Definition begin (s : bus) (p r : nat) (k : kind) (q : option nat) (n : nat) : bus * list bout :=
  let '(s1, q1, t) := match q with
                      | Some u => (s, User u, false)
                      | None => (set_fresh s (S (fresh s)), Dflt (fresh s), true)
                      end in
  let s2 := register (set_free s1 r false) q1 in
  (set_proc s2 p (Bus (Acc r k q1 t n)), [Began p r k q1]).

(** The end of do_write, where m_sequence_exiting is commented out (1650-1654), and of
    do_read (1692-1694), then XatomicX(0). *)
Definition finish (s : bus) (p : nat) (a : acc) (ok : bool) : bus * list bout :=
  let s1 := match ak a with Rd => if atmp a then unregister s (aseq a) else s | Wr => s end in
  (set_proc (set_free s1 (ar a) true) p Idle, [Done p (ar a) (ak a) (aseq a) ok]).

(** get_base_response(None) with a response there: it is taken out of the queue (1269), then
    None.append raises (1270). Nothing gives the register back. *)
Definition fetch_none (s : bus) (p : nat) (a : acc) : bus * list bout :=
  (set_proc (set_rq s (updq (rq s) (aseq a) (rq s (aseq a) - 1))) p Idle, [Raised p (ar a) (ak a) (aseq a)]).

(** The process after a transfer: 1431-1458, 1580-1600. *)
Definition next (s : bus) (p : nat) (a : acc) (ok : bool) : bus * list bout :=
  if provides then
    if Nat.eqb (rq s (aseq a)) 0 then (set_proc s p (Resp a), []) else fetch_none s p a
  else if negb ok || Nat.eqb (aleft a) 0 then finish s p a ok
  else (set_proc s p (Bus (Acc (ar a) (ak a) (aseq a) (atmp a) (aleft a - 1))), []).

Definition bstep (s : bus) (l : blab) : bus * list bout :=
  match l with
  | Call p r k q n =>
      match proc s p with
      | Idle => if free s r then begin s p r k q n else (set_proc s p (Lock r k q n), [])
      | _ => (s, [])
      end
  | Take p => match proc s p with
              | Lock r k q n => if free s r then begin s p r k q n else (s, [])
              | _ => (s, [])
              end
  | Xfer p ok rsp =>
      match proc s p with
      | Bus a => let '(s1, o1) := if rsp then deliver s (aseq a) else (s, []) in
                 let '(s2, o2) := next s1 p a ok in
                 (s2, Moved p (ar a) (aseq a) ok rsp :: o1 ++ o2)
      | _ => (s, [])
      end
  | Wake p => match proc s p with
              | Resp a => if Nat.eqb (rq s (aseq a)) 0 then (s, []) else fetch_none s p a
              | _ => (s, [])
              end
  | Put q => deliver s q
  | Fetch q => (set_rq s (updq (rq s) q (rq s q - 1)), [])
  | End n => (unregister s (User n), [])
  | Reset r => (set_free s r true, [])
  | Depth q d => (set_opts s (updq (rdepth s) (User q) d) (quiet s), [])
  | Quiet q b => (set_opts s (rdepth s) (updq (quiet s) (User q) b), [])
  end.
End Bus.
