(** Model of the ids of sequences and items with any number of sequencers: src/uvm/seq/
    uvm_sequencer_base.py m_register_sequence, m_unregister_sequence, m_find_sequence (1023-1071),
    the registration in wait_for_grant (407) and m_lock_req, remove_sequence_from_queues (978);
    uvm_sequence_base.py m_get_sqr_sequence_id, m_set_sqr_sequence_id (1287-1317), the parts of start
    about ids (299-301, 336-342, 354-358); uvm_sequencer_param_base.py send_request and put_response
    (92-133, 294-324); uvm_sequence_item.py set_id_info (162-177).

    Left out: arbitration, locks, the queue of requests and the response queue (Seqr, Sel), killing of
    sequences (it calls a method that does not exist), the request FIFO of send_request, which is
    full only if two drivers take items at once. The sequencer of a call of start is the one it finds
    (Ctx). Sequences, sequencers and items have numbers; -1 is None. *)
From Coq Require Import ZArith List Bool Arith Lia.
From Verif Require Import Prelude.
Import ListNotations.
Local Open Scope nat_scope.

(** ids: m_sqr_seq_ids; cur: get_sequence_id(); home: m_sequencer; sem: m_wait_for_grant_semaphore;
    nxt: m_next_transaction_id; busy: the state is none of CREATED, STOPPED, FINISHED; fin: calls of
    start that have FINISHED but not yet left (351-358) *)
Record sq := Sq { ids : nat -> option nat; cur : option nat; home : option nat; sem : nat; nxt : nat; busy : bool; fin : nat }.
(** uvm_sequence_base.py 168-194 *)
Definition sq0 : sq := Sq (fun _ => None) None None 0 1 false 0.
(** An item: sequence id, transaction id *)
Record it := It { sid : option nat; tid : option Z }.
(** regs s i: reg_sequences of sequencer s; gid: g_sequence_id *)
Record st := St { seqs : nat -> sq; regs : nat -> nat -> option nat; gid : nat; items : nat -> it }.
Definition st0 : st := St (fun _ => sq0) (fun _ _ => None) 1 (fun _ => It None None).

Definition set_seq (y : st) (q : nat) (a : sq) : st := St (upd (seqs y) q a) (regs y) (gid y) (items y).
Definition set_item (y : st) (x : nat) (a : it) : st := St (seqs y) (regs y) (gid y) (upd (items y) x a).
Definition with_cur (a : sq) (c : option nat) : sq := Sq (ids a) c (home a) (sem a) (nxt a) (busy a) (fin a).
(** 1287-1305 with update_sequence_id = 1 *)
Definition get_id (y : st) (q s : nat) : st * option nat := let i := ids (seqs y q) s in (set_seq y q (with_cur (seqs y q) i), i).
(** 1307-1317 *)
Definition set_id (y : st) (q s i : nat) : st :=
  let a := seqs y q in set_seq y q (Sq (upd (ids a) s (Some i)) (Some i) (home a) (sem a) (nxt a) (busy a) (fin a)).
(** 1031-1037. An id that exists is greater than 0. *)
Definition register (y : st) (q s : nat) : st :=
  let (y, r) := get_id y q s in
  match r with
  | Some _ => y
  | None =>
      let i := gid y in
      let y := set_id y q s i in
      St (seqs y) (upd (regs y) s (upd (regs y s) i (Some q))) (S i) (items y)
  end.
(** 1047-1049 *)
Definition unregister (y : st) (s : nat) (i : option nat) : st :=
  match i with Some i => St (seqs y) (upd (regs y) s (upd (regs y s) i None)) (gid y) (items y) | None => y end.

Inductive lab :=
| Start (q : nat) (s : option nat)      (* start(), up to the start of the new process *)
| Ask (q s : nat)                       (* wait_for_grant or lock on sequencer s, up to the first wait *)
| Granted (q : nat)                     (* wait_for_grant comes back *)
| Send (q s x : nat)                    (* send_request *)
| Finish (q : nat)                      (* the process of start ends: state FINISHED *)
| Leave (q : nat)                       (* start() goes on after its process ended *)
| Info (y x : nat)                      (* y.set_id_info(x) *)
| SetTid (x : nat) (t : Z)              (* x.set_transaction_id(t) *)
| Put (s x : nat).                      (* sequencer s: put_response(x) *)
Inductive out := OFatal | ODelivered (q : nat) | ODropped.

Definition step (y : st) (l : lab) : st * list out :=
  match l with
  | Start q s =>
      let a := seqs y q in
      if busy a then (set_seq y q (Sq (ids a) (cur a) s (sem a) (nxt a) true (fin a)), [OFatal])   (* 296-301 *)
      else
        let y := set_seq y q (Sq (fun _ => None) None s (sem a) (nxt a) true (fin a)) in   (* 336-338 *)
        (match s with Some s => register y q s | None => y end, [])
  | Ask q s => (register y q s, [])
  | Granted q => let a := seqs y q in (set_seq y q (Sq (ids a) (cur a) (home a) (S (sem a)) (nxt a) (busy a) (fin a)), [])
  | Send q s x =>
      let a := seqs y q in
      match sem a with
      | O => (y, [OFatal])                                                               (* 109-110 *)
      | S n =>
          let b := items y x in
          let '(t, nx) := match tid b with None => (Some (Z.of_nat (nxt a)), S (nxt a)) | _ => (tid b, nxt a) end in  (* 118-120 *)
          let y := set_seq y q (Sq (ids a) (cur a) (home a) n nx (busy a) (fin a)) in
          let (y, i) := get_id y q s in
          (set_item y x (It i t), [])                                                    (* 126 *)
      end
  | Finish q => let a := seqs y q in if busy a then (set_seq y q (Sq (ids a) (cur a) (home a) (sem a) (nxt a) false (S (fin a))), []) else (y, [])
  | Leave q =>
      let a := seqs y q in
      match fin a with
      | O => (y, [])
      | S n =>
          let y := set_seq y q (Sq (ids a) (cur a) (home a) (sem a) (nxt a) (busy a) n) in
          (match home a with Some s => let (y, i) := get_id y q s in unregister y s i | None => y end, [])  (* 356-358, 978 *)
      end
  | Info z x => (set_item y z (items y x), [])
  | SetTid x t => (set_item y x (It (sid (items y x)) (if (t =? -1)%Z then None else Some t)), [])
  | Put s x =>
      match sid (items y x) with
      | None => (y, [OFatal])                                                            (* 309-313 *)
      | Some i => (y, [match regs y s i with Some q => ODelivered q | None => ODropped end])
      end
  end.
(** The state after the calls, the newest of which is the first *)
Fixpoint after (h : list lab) : st := match h with [] => st0 | l :: h => fst (step (after h) l) end.
