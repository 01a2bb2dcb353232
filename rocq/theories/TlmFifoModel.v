(** Model of src/uvm/tlm1/uvm_tlm_fifos.py: UVMTLMFIFO and UVMTLMAnalysisFIFO on
    top of the mailbox model, with the items written to the two analysis ports.

    Simplifications: ports/exports forwarding calls to the FIFO
    (uvm_tlm_fifo_base.py:144-159) are identified with the FIFO; writing an
    analysis port is recorded as an output (the delivery to subscribers is
    modelled in PortModel.v). *)
From Coq Require Import ZArith List Bool Arith.
From Verif Require Import Prelude MailboxModel.
Import ListNotations.

Section Fifo.
Context {A : Type}.

(** uvm_tlm_fifos.py:53-68 UVMTLMFIFO.__init__ *)
Record fifo : Type := mkFifo {
  fm : mbox A;
  fsize : Z;
  pending_gets : Z
}.

Definition fifo_init (size : Z) : fifo := mkFifo (mb_init size) size 0.

(** Observable effects: those of the mailbox, the analysis port writes, what is
    appended to the caller's output list, and the error of [flush]. *)
Inductive fout : Type :=
| FM (o : mout A)
| FPutAp (x : A)
| FGetAp (x : A)
| FFlushError
| FFuel.

(** uvm_tlm_fifos.py:84-92 used *)
Definition used (f : fifo) : Z := num (fm f).
(** uvm_tlm_fifos.py:94-99 is_empty *)
Definition is_empty (f : fifo) : bool := (num (fm f) =? 0)%Z.
(** uvm_tlm_fifos.py:101-107 is_full *)
Definition is_full (f : fifo) : bool :=
  negb (fsize f =? 0)%Z && (num (fm f) =? fsize f)%Z.
(** uvm_tlm_fifos.py:145-146 can_put *)
Definition fcan_put (f : fifo) : bool :=
  (fsize f =? 0)%Z || (num (fm f) <? fsize f)%Z.
(** uvm_tlm_fifos.py:148-149 can_get *)
Definition fcan_get (f : fifo) : bool :=
  (0 <? num (fm f))%Z && (pending_gets f =? 0)%Z.
(** uvm_tlm_fifos.py:151-152 can_peek *)
Definition fcan_peek (f : fifo) : bool := (0 <? num (fm f))%Z.

(** Effects after the mailbox step returns: uvm_tlm_fifos.py:110-112 (put),
    115-122 (blocking get: counter down, get_ap.write(res)), 139-143 (try_put).
    A [put] that is still suspended writes nothing. *)
Definition after_blocking (f : fifo) (r : mbox A * list (mout A)) : fifo * list fout :=
  let '(m, o) := r in
  (mkFifo m (fsize f)
     (fold_left (fun n e => match e with ODelivered _ _ => (n - 1)%Z | _ => n end) o
        (pending_gets f)),
   flat_map (fun e => match e with
     | OAccepted p x => [FM e; FPutAp x]
     | ODelivered p x => [FM e; FGetAp x]
     | _ => [FM e] end) o).

(** uvm_tlm_fifos.py:130-134 try_get(t): the mailbox appends the item to the
    caller's list [t]; then [t[0]] is written to get_ap. Returns the new list. *)
Definition ftry_get (f : fifo) (p : nat) (t : list A) : fifo * list fout * list A * bool :=
  let '(m, o) := try_get (fm f) p in
  match o with
  | [ODelivered q x] =>
      let t' := t ++ [x] in
      match t' with
      | y :: _ => (mkFifo m (fsize f) (pending_gets f), [FM (ODelivered q x); FGetAp y], t', true)
      | [] => (mkFifo m (fsize f) (pending_gets f), [], t', true) (* t' is never empty *)
      end
  | _ => (mkFifo m (fsize f) (pending_gets f), map FM o, t, false)
  end.

(** uvm_tlm_fifos.py:159-166 flush: the same list [trans] is passed to every
    try_get. The loop removes one item per turn; [fuel] is the number of turns
    allowed and [FFuel] marks exhaustion (never happens, see proofs). *)
Fixpoint flush_loop (fuel : nat) (f : fifo) (p : nat) (t : list A) : fifo * list fout :=
  match fuel with
  | O => (f, [FFuel])
  | S k =>
      let '(f1, o, t', res) := ftry_get f p t in
      if res then let '(f2, o2) := flush_loop k f1 p t' in (f2, o ++ o2)
      else (f1, o)
  end.

Definition flush (f : fifo) (p : nat) : fifo * list fout :=
  let '(f1, o) := flush_loop (S (length (queue (fm f)))) f p [] in
  if (0 <? num (fm f1))%Z && negb (pending_gets f1 =? 0)%Z then (f1, o ++ [FFlushError])
  else (f1, o).

Inductive fop : Type :=
| FPut (x : A) | FGet | FPeek | FTryPut (x : A) | FTryGet (t : list A) | FTryPeek | FFlush.

Inductive flabel : Type :=
| FCall (pid : nat) (op : fop)
| FResume (pid : nat).

Definition fstep (f : fifo) (l : flabel) : fifo * list fout :=
  match l with
  | FCall p op =>
      match procs (fm f) p with
      | Idle =>
          match op with
          | FPut x => after_blocking f (mstep (fm f) (Call p (Put x)))
          | FGet =>
              (* line 116: counter up before the await *)
              after_blocking (mkFifo (fm f) (fsize f) (pending_gets f + 1))
                (mstep (fm f) (Call p Get))
          | FPeek => after_blocking f (mstep (fm f) (Call p Peek))
          | FTryPut x => after_blocking f (mstep (fm f) (Call p (TryPut x)))
          | FTryGet t => let '(f1, o, _, _) := ftry_get f p t in (f1, o)
          | FTryPeek => after_blocking f (mstep (fm f) (Call p TryPeek))
          | FFlush => flush f p
          end
      | _ => (f, [])
      end
  | FResume p => after_blocking f (mstep (fm f) (Resume p))
  end.

Definition frun (size : Z) (ls : list flabel) : fifo * list fout :=
  run_machine fstep (fifo_init size) ls.

(** uvm_tlm_fifos.py:194 UVMTLMAnalysisFIFO: size 0; 210-211 write = try_put. *)
Definition analysis_fifo_init : fifo := fifo_init 0.
Definition analysis_write (f : fifo) (p : nat) (x : A) : fifo * list fout :=
  after_blocking f (mstep (fm f) (Call p (TryPut x))).
End Fifo.
Arguments fifo : clear implicits.
Arguments fout : clear implicits.
Arguments fop : clear implicits.
Arguments flabel : clear implicits.
