(** Model of the register lock, src/uvm/reg/uvm_reg.py:99-101, 791-818 and
    1252-1276, a mailbox of capacity one (MailboxModel.v gives the mailbox
    itself). Coroutines may be resumed in any order. *)
From Coq Require Import List Bool Arith.
From Verif Require Import Prelude.
Import ListNotations.

(** [AWait]: suspended in mailbox.get, not runnable; [AWoken]: the mailbox event
    was set, will retest. The number identifies the operation item [rw]. *)
Inductive aproc := AIdle | AWait (rw : nat) | AWoken (rw : nat).
Record alock := ALock { token : bool; owner : option nat; aprocs : nat -> aproc }.
Definition alock0 : alock := ALock true None (fun _ => AIdle).

Inductive aout := AEntered (p rw : nat) | ANested (p rw : nat) | ALeft (p : nat) | AResetDone.
Inductive alabel := AEnter (p rw : nat) | AResume (p : nat) | ALeave (p : nat) | ARefused (p : nat) | AReset.

Definition awake (s : aproc) : aproc := match s with AWait rw => AWoken rw | _ => s end.
(** mailbox.get: uvm_mailbox.py:65-83, then 1270 *)
Definition a_get (s : alock) (p rw : nat) : alock * list aout :=
  if token s then (ALock false (Some rw) (upd (aprocs s) p AIdle), [AEntered p rw])
  else (ALock false (owner s) (upd (aprocs s) p (AWait rw)), []).

Definition astep (s : alock) (l : alabel) : alock * list aout :=
  match l with
  | AEnter p rw =>                                        (* 1262-1270 *)
      match owner s with
      | Some o => if Nat.eqb o rw then (s, [ANested p rw]) else a_get s p rw
      | None => a_get s p rw
      end
  | AResume p => match aprocs s p with AWoken rw => a_get s p rw | _ => (s, []) end
  | ALeave p =>                                           (* 1271-1276: try_get, put(1) *)
      (ALock true None (fun q => awake (aprocs s q)), [ALeft p])
  | ARefused p =>
      (* 1450-1453 then 912-914: a write refused by a hook releases the lock twice.
         put(1) after try_get does not suspend, so nothing runs in between. *)
      (ALock true None (fun q => awake (awake (aprocs s q))), [ALeft p])
  | AReset =>                                             (* 814-816: try_get, try_put(1) *)
      (ALock true (owner s) (fun q => awake (aprocs s q)), [AResetDone])
  end.
Definition arun (ls : list alabel) := run_machine astep alock0 ls.

(** Spec: the processes inside an operation, according to the trace. *)
Fixpoint remove_one (p : nat) (l : list nat) : list nat :=
  match l with [] => [] | q :: l => if Nat.eqb p q then l else q :: remove_one p l end.
Definition inside_step (l : list nat) (o : aout) : list nat :=
  match o with AEntered p _ => p :: l | ALeft p => remove_one p l | _ => l end.
Definition inside (tr : list aout) : list nat := fold_left inside_step tr [].

(** Disciplined use: one pending call per process, an operation is left only by
    a process inside it, operation items are not shared between processes, no
    register reset during operation. *)
Definition alabel_ok (s : alock) (tr : list aout) (l : alabel) : Prop :=
  match l with
  | AEnter p rw => aprocs s p = AIdle /\ (owner s = Some rw -> In p (inside tr)) /\ (In p (inside tr) -> owner s = Some rw)
  | AResume p => True
  | ALeave p | ARefused p => In p (inside tr)
  | AReset => inside tr = []
  end.
Fixpoint arun_ok (s : alock) (tr : list aout) (ls : list alabel) : Prop :=
  match ls with
  | [] => True
  | l :: ls => alabel_ok s tr l /\ arun_ok (fst (astep s l)) (tr ++ snd (astep s l)) ls
  end.
