(** Model of src/uvm/comps/uvm_in_order_comparator.py 116-198, UVMInOrderComparator, and of
    its wrapper src/uvm/comps/uvm_algorithmic_comparator.py 116-118.

    The two exports are taken as bound to the FIFOs (connect_phase, 135-137; binding is the
    subject of PortModel.v). Simplified: the report calls are one output each; a failing
    [convert2string] and a simulation ended by a report are not modelled. *)
From Coq Require Import ZArith List Bool Arith.
From Verif Require Import Prelude MailboxModel TlmFifoModel.
Import ListNotations.

(** What a comparison policy may return; the library's policies return a bool:
    uvm_policies.py 43-46 [a == b] and 98-101 [a.compare(b)] (uvm_object.py 646). *)
Inductive pyres := RBool (b : bool) | RInt (z : Z) | RNone.
(** [r is False], line 168. *)
Definition is_False (r : pyres) : bool := match r with RBool false => true | _ => false end.

Section Cmp.
Context {A : Type}.
(** self.CompType.comp *)
Context (comp : A -> A -> pyres).

(** Where run_phase is: before or in the [await] of line 161 or of line 162. *)
Inductive pc := AtBefore | InBefore | AtAfter (b : A) | InAfter (b : A).
(** 116-130 __init__ *)
Record cmp := Cmp { before_fifo : fifo A; after_fifo : fifo A; at_ : pc; m_matches : Z; m_mismatches : Z }.
Definition cmp0 : cmp := Cmp analysis_fifo_init analysis_fifo_init AtBefore 0 0.

Inductive cmpout :=
| Mismatch (a b : A)          (* 169-171 uvm_error *)
| Match (b : A)               (* 175-176 uvm_info *)
| Published (first second : A) (* 184-188 pair_ap.write(pair) *)
| Flushed.

(** The comparator is coroutine 0, the writers are 1. *)
Definition got (o : list (fout A)) : option A :=
  match flat_map (fun e => match e with FM (ODelivered O x) => [x] | _ => [] end) o with
  | x :: _ => Some x
  | [] => None
  end.

(** 164-188 *)
Definition compare_pair (c : cmp) (b a : A) : cmp * list cmpout :=
  if is_False (comp b a)
  then (Cmp (before_fifo c) (after_fifo c) AtBefore (m_matches c) (m_mismatches c + 1), [Mismatch a b; Published a b])
  else (Cmp (before_fifo c) (after_fifo c) AtBefore (m_matches c + 1) (m_mismatches c), [Match b; Published a b]).

Inductive cmplab :=
| WriteBefore (x : A)   (* before_export.write(x) *)
| WriteAfter (x : A)    (* after_export.write(x) *)
| Go                    (* the scheduler runs run_phase up to its next await *)
| FlushCounts.          (* flush() *)

Definition go_before (c : cmp) (l : flabel A) : cmp * list cmpout :=
  let '(f, o) := fstep (before_fifo c) l in
  (Cmp f (after_fifo c) (match got o with Some b => AtAfter b | None => InBefore end) (m_matches c) (m_mismatches c), []).
Definition go_after (c : cmp) (b : A) (l : flabel A) : cmp * list cmpout :=
  let '(f, o) := fstep (after_fifo c) l in
  match got o with
  | Some a => compare_pair (Cmp (before_fifo c) f (at_ c) (m_matches c) (m_mismatches c)) b a
  | None => (Cmp (before_fifo c) f (InAfter b) (m_matches c) (m_mismatches c), [])
  end.

(** Writes are possible wherever run_phase is: also from a subscriber of pair_ap. *)
Definition cmpstep (c : cmp) (l : cmplab) : cmp * list cmpout :=
  match l with
  | WriteBefore x =>
      (Cmp (fst (analysis_write (before_fifo c) 1 x)) (after_fifo c) (at_ c) (m_matches c) (m_mismatches c), [])
  | WriteAfter x =>
      (Cmp (before_fifo c) (fst (analysis_write (after_fifo c) 1 x)) (at_ c) (m_matches c) (m_mismatches c), [])
  | Go =>
      match at_ c with
      | AtBefore => go_before c (FCall 0 FGet)
      | InBefore => go_before c (FResume 0)
      | AtAfter b => go_after c b (FCall 0 FGet)
      | InAfter b => go_after c b (FResume 0)
      end
  (* 196-198 *)
  | FlushCounts => (Cmp (before_fifo c) (after_fifo c) (at_ c) 0 0, [Flushed])
  end.
Definition cmprun (ls : list cmplab) : cmp * list cmpout := run_machine cmpstep cmp0 ls.
End Cmp.
Arguments cmp : clear implicits.
Arguments cmplab : clear implicits.
Arguments cmpout : clear implicits.

(** uvm_algorithmic_comparator.py 116-118 write: the before items go through the
    transformer; 112-113: the after items are passed on. *)
Inductive alglab (B A : Type) := AWriteBefore (x : B) | AWriteAfter (x : A) | AGo | AFlush.
Arguments AWriteBefore {B A}. Arguments AWriteAfter {B A}. Arguments AGo {B A}. Arguments AFlush {B A}.
Definition algstep {B A : Type} (comp : A -> A -> pyres) (transform : B -> A) (c : cmp A) (l : alglab B A) : cmp A * list (cmpout A) :=
  match l with
  | AWriteBefore x => cmpstep comp c (WriteBefore (transform x))
  | AWriteAfter x => cmpstep comp c (WriteAfter x)
  | AGo => cmpstep comp c Go
  | AFlush => cmpstep comp c FlushCounts
  end.
Definition algrun {B A : Type} comp (transform : B -> A) (ls : list (alglab B A)) := run_machine (algstep comp transform) cmp0 ls.
