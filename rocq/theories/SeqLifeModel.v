(** Model of the life of one sequence object: src/uvm/seq/uvm_sequence_base.py start() 261-369,
    start_process() 372-427, wait_for_sequence_state() 223-241, the phase data access policies
    543-698, with set_item_context() of uvm_sequence_item.py 118-136 and m_register_sequence(),
    remove_sequence_from_queues() of uvm_sequencer_base.py 1023-1037, 978, 1040-1049.

    A coroutine is left only at an await, so its program is a list of segments run without
    interruption. Every hook ([await self.body()] and so on) may take any time and do anything,
    in particular call the modelled methods again. Not modelled: transaction recording, the
    response queue (SeqrModel.v), requests left in the sequencer's queues (SeqrModel.v); there is
    one sequencer. kill() is not implemented by the library (m_kill does not exist), so the state
    UVM_STOPPED does not occur. *)
From Coq Require Import ZArith List Bool Arith.
From Verif Require Import Prelude DapModel.
Import ListNotations.

(** uvm_object_globals.py 353-361 *)
Inductive sstate := CREATED | PRE_START | PRE_BODY | BODY | ENDED | POST_BODY | POST_START | FINISHED.
Definition sstate_eqb (a b : sstate) : bool :=
  match a, b with
  | CREATED, CREATED | PRE_START, PRE_START | PRE_BODY, PRE_BODY | BODY, BODY | ENDED, ENDED
  | POST_BODY, POST_BODY | POST_START, POST_START | FINISHED, FINISHED => true
  | _, _ => false
  end.
Inductive hook := HPreStart | HPreBody | HBody | HPostBody | HPostStart.

Inductive action :=
| ASet (st : sstate)
| ARaise                    (* 382-383 *)
| ADrop                     (* 421-422 *)
| ACall (h : hook)
| APreDo | AMidDo | APostDo (* of the parent, given as an argument *)
| AEvent                    (* 425 *)
| AExit                     (* 351-358 *)
| AChild                    (* 363-365 *)
| ADaps                     (* 367-369 *)
| AReturn.

(** 378-427 and 351-369, cut at the awaits. The empty segment is the end of the forked
    process: start() resumes after it. *)
Definition segs (par cpp : bool) : list (list action) :=
  [[ARaise; ACall HPreStart]] ++
  (if cpp then [[ASet PRE_BODY]; [ACall HPreBody]] else []) ++
  [(if par then [APreDo; AMidDo] else []) ++ [ASet BODY]; [ACall HBody]; [ASet ENDED];
   (if par then [APostDo] else []) ++ (if cpp then [ASet POST_BODY] else [ASet POST_START])] ++
  (if cpp then [[ACall HPostBody]; [ASet POST_START]] else []) ++
  [[ACall HPostStart]; [ADrop; ASet FINISHED; AEvent]; []; [AExit]; [AChild; ADaps; AReturn]].

(** A call of start(): not made, running (with what is left and the hook awaited), ended
    by an exception, returned. *)
Inductive pstate := PNone | PLive (rest : list (list action)) (parent : option nat) (awaited : option hook) | PDead | PDone.

Record sq := Sq {
  st : sstate;                 (* m_sequence_state *)
  apo : @gtl bool;             (* m_automatic_phase_objection_dap *)
  sp : @gtl nat;               (* m_starting_phase_dap *)
  par : option nat;            (* m_parent_sequence *)
  sqr : bool;                  (* m_sequencer is not None *)
  pri : Z;                     (* m_priority *)
  kids : nat -> bool;          (* this sequence in children_array of another *)
  sid : option nat;            (* m_sqr_seq_ids for the sequencer *)
  regd : nat -> bool;          (* the ids under which the sequencer's reg_sequences has this sequence *)
  gid : nat;                   (* UVMSequencerBase.g_sequence_id *)
  fin : bool;                  (* m_events[UVM_FINISHED] is set *)
  procs : nat -> pstate
}.
(** 161-194; g_sequence_id starts at 1 *)
Definition sq0 : sq :=
  Sq CREATED gtl0 gtl0 None false (-1) (fun _ => false) None (fun _ => false) 1 false (fun _ => PNone).

Inductive out :=
| OFatal (p : nat)                         (* 300, 307: uvm_fatal raises *)
| OHook (p : nat) (h : hook) (seen : sstate)
| OPreDo (p q : nat) | OMidDo (p q : nat) | OPostDo (p q : nat)   (* called on q *)
| ORaised (p ph : nat) | ODropped (p ph : nat)
| OReturned (p : nat) | OThrown (p : nat)
| OPhase (v : option nat) | OApo (v : option bool) | OLocked
| OWaitReturns | OWaitRaises
| OOther (i : nat).                        (* the id another sequence got *)

Section Life.
(** Priority and sequencer of the other sequences. *)
Context (ppri : nat -> Z) (psqr : nat -> bool).

Definition truthy (v : option bool) : bool := match v with Some true => true | _ => false end.
(** One action of call [p], whose parent_sequence argument is [q]. *)
Definition act (p : nat) (q : option nat) (s : sq) (a : action) : sq * list out :=
  let 'Sq st apo sp par sqr pri kids sid regd gid fin procs := s in
  match a with
  | ASet x => (Sq x apo sp par sqr pri kids sid regd gid fin procs, [])
  | ARaise =>
      let apo' := fst (gstep apo GGet) in
      if truthy (g_val apo) then
        (Sq st apo' (fst (gstep sp GGet)) par sqr pri kids sid regd gid fin procs,
         match g_val sp with Some ph => [ORaised p ph] | None => [] end)
      else (Sq st apo' sp par sqr pri kids sid regd gid fin procs, [])
  | ADrop =>
      let apo' := fst (gstep apo GGet) in
      if truthy (g_val apo) then
        (Sq st apo' (fst (gstep sp GGet)) par sqr pri kids sid regd gid fin procs,
         match g_val sp with Some ph => [ODropped p ph] | None => [] end)
      else (Sq st apo' sp par sqr pri kids sid regd gid fin procs, [])
  | ACall h => (s, [OHook p h st])
  | APreDo => (s, match q with Some q => [OPreDo p q] | None => [] end)
  | AMidDo => (s, match q with Some q => [OMidDo p q] | None => [] end)
  | APostDo => (s, match q with Some q => [OPostDo p q] | None => [] end)
  | AEvent => (Sq st apo sp par sqr pri kids sid regd gid true procs, [])
  | AExit =>
      (Sq st apo sp par sqr pri kids sid
         (if sqr then match sid with Some i => upd regd i false | None => regd end else regd) gid fin procs, [])
  | AChild =>
      (Sq st apo sp par sqr pri (match par with Some q => upd kids q false | None => kids end) sid regd gid fin procs, [])
  | ADaps => (Sq st (Gtl false (g_val apo)) gtl0 par sqr pri kids sid regd gid fin procs, [])
  | AReturn => (s, [OReturned p])
  end.
Fixpoint acts (p : nat) (q : option nat) (s : sq) (l : list action) : sq * list out :=
  match l with
  | [] => (s, [])
  | a :: l' => let '(s1, o1) := act p q s a in let '(s2, o2) := acts p q s1 l' in (s2, o1 ++ o2)
  end.
(** the hook a segment ends with *)
Definition awaits (l : list action) : option hook := match last l AReturn with ACall h => Some h | _ => None end.

Definition setp (s : sq) (p : nat) (x : pstate) : sq :=
  let 'Sq st apo sp par sqr pri kids sid regd gid fin procs := s in
  Sq st apo sp par sqr pri kids sid regd gid fin (upd procs p x).

Inductive lab :=
| LStart (p : nat) (parent : option nat) (sequencer : bool) (priority : Z) (cpp : bool)
| LRun (p : nat)                 (* the scheduler resumes call p up to its next await *)
| LThrow (p : nat)               (* the hook awaited by call p raises *)
| LSetPhase (ph : nat) | LGetPhase | LSetApo (b : bool) | LGetApo
| LWait (mask : sstate -> bool)
| LOther.                        (* another sequence is registered *)

(** 261-349 *)
Definition start (s : sq) (p : nat) (parent : option nat) (sequencer : bool) (priority : Z) (cpp : bool) : sq * list out :=
  let 'Sq st apo sp par sqr pri kids sid regd gid fin procs := s in
  let par := match parent with Some _ => parent | None => par end in                       (* 129-130 *)
  let sqr := if sequencer then true else match par with Some q => psqr q | None => false end in  (* 131-133 *)
  if negb (sstate_eqb st CREATED || sstate_eqb st FINISHED)
  then (Sq st apo sp par sqr pri kids sid regd gid fin procs, [OFatal p])
  else
    let kids := match par with Some q => upd kids q true | None => kids end in             (* 303-304 *)
    if (priority <? -1)%Z then (Sq st apo sp par sqr pri kids sid regd gid fin procs, [OFatal p])
    else
      let priority :=
        if (priority <? 0)%Z then match parent with None => 100%Z | Some q => ppri q end else priority in
      let '(sid, regd, gid) := if sqr then (Some gid, upd regd gid true, S gid) else (None, regd, gid) in (* 338-342 *)
      (Sq PRE_START apo sp par sqr priority kids sid regd gid fin
          (upd procs p (PLive (segs (match parent with Some _ => true | None => false end) cpp) parent None)), []).

Definition step (s : sq) (l : lab) : sq * list out :=
  match l with
  | LStart p parent sequencer priority cpp =>
      match procs s p with PNone => start s p parent sequencer priority cpp | _ => (s, []) end
  | LRun p =>
      match procs s p with
      | PLive (l :: rest) q _ =>
          let '(s1, o) := acts p q s l in
          (setp s1 p (match rest with [] => PDone | _ => PLive rest q (awaits l) end), o)
      | _ => (s, [])
      end
  | LThrow p =>
      match procs s p with
      | PLive _ _ (Some _) => (setp s p PDead, [OThrown p])
      | _ => (s, [])
      end
  | LSetPhase ph =>
      let 'Sq st apo sp par sqr pri kids sid regd gid fin procs := s in
      (Sq st apo (fst (gstep sp (GSet ph))) par sqr pri kids sid regd gid fin procs, if g_locked sp then [OLocked] else [])
  | LGetPhase =>
      let 'Sq st apo sp par sqr pri kids sid regd gid fin procs := s in
      (Sq st apo (fst (gstep sp GGet)) par sqr pri kids sid regd gid fin procs, [OPhase (g_val sp)])
  | LSetApo b =>
      let 'Sq st apo sp par sqr pri kids sid regd gid fin procs := s in
      (Sq st (fst (gstep apo (GSet b))) sp par sqr pri kids sid regd gid fin procs, if g_locked apo then [OLocked] else [])
  | LGetApo =>
      let 'Sq st apo sp par sqr pri kids sid regd gid fin procs := s in
      (Sq st (fst (gstep apo GGet)) sp par sqr pri kids sid regd gid fin procs, [OApo (g_val apo)])
  (* 236-241: only UVM_FINISHED has an event; the exception otherwise. The event's wait()
     returns at once if it is set and would block if not. *)
  | LWait mask =>
      (s, if mask (st s) && sstate_eqb (st s) FINISHED then if fin s then [OWaitReturns] else [] else [OWaitRaises])
  | LOther =>
      let 'Sq st apo sp par sqr pri kids sid regd gid fin procs := s in
      (Sq st apo sp par sqr pri kids sid regd (S gid) fin procs, [OOther gid])
  end.
Definition life (ls : list lab) : sq * list out := run_machine step sq0 ls.
End Life.
