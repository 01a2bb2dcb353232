(** Model of src/uvm/base/uvm_phase.py: the execution of a graph of phase nodes,
    m_run_phases (1224-1246), execute_phase (1252-1509), the waits (1513-1530, 896-926,
    1119-1189, 1552-1586, 1634-1680) and set_state (299-309).

    A node runs a list of instructions, one per uninterrupted piece of execute_phase; a
    schedule picks the next piece to run. The cocotb Event semantics is explicit: set()
    wakes the processes blocked in wait(); wait() on a set event does not block.

    Simplified: the jump fields are never set in this library (jump() and set_jump_phase()
    do not exist), nor is m_sync, so the jump and sync branches are left out; the objections
    of a task phase are one instruction that ends at an arbitrary moment ([IBody]), and the
    objections of a sibling are 0 when looked at (1581); the phase callbacks, traces and
    traversals with STARTED, READY_TO_END and ENDED are left out. *)
From Coq Require Import ZArith List Bool Arith.
From Verif Require Import Prelude.
Import ListNotations.

(** uvm_object_globals.py 474-484 *)
Definition DORMANT := 1%Z.
Definition SCHEDULED := 2%Z.
Definition SYNCING := 4%Z.
Definition STARTED := 8%Z.
Definition EXECUTING := 16%Z.
Definition READY_TO_END := 32%Z.
Definition ENDED := 64%Z.
Definition CLEANUP := 128%Z.
Definition DONE := 256%Z.

(** isnode: the phase type is UVM_PHASE_NODE; isfinal: the phase is called "final". *)
Record pgraph := PGraph { succs : nat -> list nat; preds : nat -> list nat; isnode : nat -> bool; istask : nat -> bool; isfinal : nat -> bool }.

Section Run.
Context (g : pgraph).

(** *** Siblings *)
Definition dadd (l : list nat) (x : nat) : list nat := if existsb (Nat.eqb x) l then l else l ++ [x].
Definition ddel (l : list nat) (x : nat) : list nat := filter (fun y => negb (Nat.eqb x y)) l.
(** One round of the loops 711-722 and 1136-1146: the keys that are not nodes are replaced
    by their neighbours. *)
Definition expand1 (nbr : nat -> list nat) (l : list nat) : list nat :=
  fold_left (fun d s => if isnode g s then d else fold_left dadd (nbr s) (ddel d s)) l l.
Fixpoint expand (fuel : nat) (nbr : nat -> list nat) (l : list nat) : option (list nat) :=
  if forallb (isnode g) l then Some l
  else match fuel with O => None | S k => expand k nbr (expand1 nbr l) end.
(** None: the loop does not end. *)
Inductive sibres := SLoop | SKeyErr | SOk (l : list nat).
(** 690-727 and 1119-1150 *)
Definition siblings (fuel : nat) (n : nat) : sibres :=
  match expand fuel (succs g) (fold_left dadd (succs g n) []) with
  | None => SLoop
  | Some ss =>
      match expand fuel (preds g) (fold_left dadd (flat_map (preds g) ss) []) with
      | None => SLoop
      | Some ps =>
          if isfinal g n then SOk ps
          else if existsb (Nat.eqb n) ps then SOk (ddel ps n) else SKeyErr
      end
  end.

(** *** Programs *)
Inductive instr :=
| IWaitPreds                  (* 1265-1272, 1513-1530 *)
| ISet (st : Z)               (* set_state of the own node *)
| IExec                       (* traverse with EXECUTING: the phase of every component *)
| IBody                       (* 1361, 1644-1651: objections *)
| IWaitSib (q : nat) (st : Z) (* q.wait_for_state(st, UVM_GTE) *)
| IFail                       (* an exception *)
| ISched (q : nat).           (* 1494-1505, one successor *)
Definition sibwait (fuel : nat) (n : nat) (st : Z) : list instr :=
  match siblings fuel n with SLoop | SKeyErr => [IFail] | SOk l => map (fun q => IWaitSib q st) l end.
(** 1252-1509 *)
Definition prog (fuel : nat) (n : nat) : list instr :=
  [IWaitPreds; ISet SYNCING; ISet STARTED; ISet EXECUTING] ++
  (if isnode g n then
     IExec ::
     (if istask g n
      then IBody :: sibwait fuel n EXECUTING ++ ISet READY_TO_END :: sibwait fuel n EXECUTING
      else sibwait fuel n READY_TO_END) ++
     [ISet ENDED; ISet CLEANUP]
   else []) ++
  ISet DONE :: map ISched (succs g n).

(** *** The machine *)
Inductive wst := WRun | WBlocked | WWoken.
Record proc := Proc { pnode : nat; ppos : nat; pput : option nat; pw : wst }.
(** done_ev: m_phase_done_event; st_ev: m_phase_set_state_event; hopper: m_phase_hopper *)
Record pstate := PState { mst : nat -> Z; done_ev : nat -> bool; st_ev : nat -> bool; hopper : list nat; procs : list proc }.
Inductive pev := ESet (n : nat) (st : Z) | ESched (n : nat) | EExec (n : nat).
Context (fuel : nat).
Definition waits_on (q : nat) (p : proc) : bool :=
  match pw p, nth_error (prog fuel (pnode p)) (ppos p) with WBlocked, Some (IWaitSib q' _) => Nat.eqb q q' | _, _ => false end.
Definition wake (q : nat) (p : proc) : proc := if waits_on q p then Proc (pnode p) (ppos p) (pput p) WWoken else p.
(** 299-309 *)
Definition set_state (s : pstate) (n : nat) (st : Z) : pstate :=
  PState (upd (mst s) n st) (if (st =? DONE)%Z then upd (done_ev s) n true else done_ev s) (upd (st_ev s) n true) (hopper s)
    (map (wake n) (procs s)).
Fixpoint lset {A} (l : list A) (i : nat) (x : A) : list A :=
  match l, i with
  | [], _ => []
  | _ :: t, O => x :: t
  | y :: t, S i => y :: lset t i x
  end.
Definition set_proc (s : pstate) (i : nat) (p : proc) : pstate := PState (mst s) (done_ev s) (st_ev s) (hopper s) (lset (procs s) i p).
Inductive plab := LRunner | LProc (i : nat).
Definition stepo (s : pstate) (l : plab) : option (pstate * list pev) :=
  match l with
  | LRunner =>                                               (* 1238-1246 *)
      match hopper s with
      | [] => None
      | n :: t => Some (PState (mst s) (done_ev s) (st_ev s) t (procs s ++ [Proc n 0 None WRun]), [])
      end
  | LProc i =>
      match nth_error (procs s) i with
      | None => None
      | Some (Proc n k (Some q) w) =>                        (* 1504: try_put *)
          Some (PState (mst s) (done_ev s) (st_ev s) (hopper s ++ [q]) (lset (procs s) i (Proc n k None w)), [])
      | Some (Proc n k None w) =>
          let next := Proc n (S k) None WRun in
          match nth_error (prog fuel n) k with
          | None => None
          | Some IWaitPreds =>
              if forallb (done_ev s) (preds g n)
              then Some (set_proc s i (if (mst s n =? DONE)%Z then Proc n (length (prog fuel n)) None WRun else next), [])
              else None
          | Some (ISet st) => Some (set_state (set_proc s i next) n st, [ESet n st])
          | Some IExec => Some (set_proc s i next, [EExec n])
          | Some IBody => Some (set_proc s i next, [])
          | Some IFail => None
          | Some (IWaitSib q st) =>                          (* 921-926 *)
              match w with
              | WRun => Some (set_proc s i (Proc n k None (if st_ev s q then WWoken else WBlocked)), [])
              | WBlocked => None
              | WWoken =>
                  let p' := if (st <=? mst s q)%Z then next else Proc n k None WRun in
                  Some (PState (mst s) (done_ev s) (upd (st_ev s) q false) (hopper s) (lset (procs s) i p'), [])
              end
          | Some (ISched q) =>                               (* 1498-1501 *)
              if (mst s q <? SCHEDULED)%Z
              then Some (set_state (set_proc s i (Proc n (S k) (Some q) WRun)) q SCHEDULED, [ESched q])
              else Some (set_proc s i next, [])
          end
      end
  end.
Definition pstep (s : pstate) (l : plab) : pstate * list pev := match stepo s l with Some r => r | None => (s, []) end.
(** 1233-1235: the domain is put in the hopper; nodes are dormant. *)
Definition pinit (root : nat) : pstate := PState (fun _ => DORMANT) (fun _ => false) (fun _ => false) [root] [].
End Run.
