(** Model of src/uvm/base/uvm_objection.py: raising, dropping and draining
    objections on a hierarchy. *)
From Coq Require Import List Bool Arith ZArith Lia.
From Verif Require Import Prelude.
Import ListNotations.
Open Scope Z_scope.

Section Objection.
(** m_get_parent, 336-349. Objects are numbered, 0 being m_top. *)
Context (parent : nat -> nat).

(** UVMObjectionContextObject, 1172-1198: object, source object, count. The
    code recycles these records through m_context_pool; the model treats them
    as values. *)
Record ctx := Ctx { x_obj : nat; x_src : nat; x_cnt : Z }.
(** A process running 800-836: the arguments passed to m_forked_drain and
    whether all_dropped (857) has been called. The time the drain takes
    (850-852) and the user's all_dropped tasks are left to the schedule. *)
Record dproc := DProc { d_ctx : ctx; d_notified : bool }.

(** One objection. An absent entry of m_source_count or m_total_count is zero.
    m_scheduled_contexts holds the contexts of m_forked_list and is only ever
    deleted from together with it; it is left out, as are the tracing (277-329,
    off by default), clear() (710-766) and propagate mode 0, which cannot be
    selected. *)
Record objn := Objn {
  src : nat -> Z;                 (* m_source_count *)
  tot : nat -> Z;                 (* m_total_count *)
  sched : list ctx;               (* m_scheduled_list *)
  ev : bool;                      (* m_scheduled_list_not_empty_event *)
  flist : list ctx;               (* m_forked_list *)
  nfork : nat;                    (* processes started at 793, not yet run *)
  fctx : nat -> option ctx;       (* m_forked_contexts *)
  drain : list dproc
}.
Definition objn0 : objn := Objn (fun _ => 0) (fun _ => 0) [] false [] 0 (fun _ => None) [].

Inductive out :=
| OAcc (o : nat) (k : Z)          (* accepted raise (k > 0) or drop (k < 0) by o *)
| ORaised (o : nat)               (* raised(), 481 *)
| ODropped (o : nat)              (* dropped(), 664 *)
| OAllDropped (o : nat)           (* all_dropped(), 857 *)
| OFatal (o : nat)                (* OBJTN_ZERO, 644-656 *)
| OKeyError.                      (* 832 *)

Definition set_src (s : objn) f := Objn f (tot s) (sched s) (ev s) (flist s) (nfork s) (fctx s) (drain s).
Definition set_tot (s : objn) f := Objn (src s) f (sched s) (ev s) (flist s) (nfork s) (fctx s) (drain s).
Definition set_sched (s : objn) l e := Objn (src s) (tot s) l e (flist s) (nfork s) (fctx s) (drain s).
Definition set_flist (s : objn) l n := Objn (src s) (tot s) (sched s) (ev s) l n (fctx s) (drain s).
Definition set_fctx (s : objn) f := Objn (src s) (tot s) (sched s) (ev s) (flist s) (nfork s) f (drain s).
Definition set_drain (s : objn) l := Objn (src s) (tot s) (sched s) (ev s) (flist s) (nfork s) (fctx s) l.

(** m_drop 635-696 with m_propagate 366-372; m_cleared is 0. *)
Fixpoint m_drop (fuel : nat) (s : objn) (o source : nat) (k : Z) : objn * list out :=
  match fuel with
  | O => (s, [])
  | S fuel =>
      if k =? 0 then (s, [])
      else if k >? tot s o then (s, [OFatal o])
      else if Nat.eqb o source && (k >? src s o) then (s, [OFatal o])
      else
        let '(s, o1) :=
          if Nat.eqb o source then (set_src s (upd (src s) o (src s o - k)), [OAcc o (- k)])
          else (s, []) in
        let s := set_tot s (upd (tot s) o (tot s o - k)) in
        if negb (tot s o =? 0) then
          if negb (Nat.eqb o 0) then
            let '(s, o2) := m_drop fuel s (parent o) source k in
            (s, o1 ++ ODropped o :: o2)
          else (s, o1 ++ [ODropped o])
        else (set_sched s (sched s ++ [Ctx o source k]) true, o1 ++ [ODropped o])
  end.

(** removing the first context of an object: 488-495, 500-508 *)
Fixpoint take_ctx (o : nat) (l : list ctx) : option (ctx * list ctx) :=
  match l with
  | [] => None
  | c :: l => if Nat.eqb (x_obj c) o then Some (c, l)
              else match take_ctx o l with Some (d, l') => Some (d, c :: l') | None => None end
  end.
(** 485-515 *)
Definition find_ctx (s : objn) (o : nat) : option ctx * objn :=
  match take_ctx o (sched s) with
  | Some (c, l) => (Some c, set_sched s l (ev s))
  | None =>
      match take_ctx o (flist s) with
      | Some (c, l) => (Some c, set_flist s l (nfork s))
      | None =>
          match fctx s o with
          | Some c => (Some c, set_fctx s (upd (fctx s) o None))
          | None => (None, s)
          end
      end
  end.

(** m_raise, 459-564 *)
Fixpoint m_raise (fuel : nat) (s : objn) (o source : nat) (k : Z) : objn * list out :=
  match fuel with
  | O => (s, [])
  | S fuel =>
      if k =? 0 then (s, [])
      else
        let s := set_tot s (upd (tot s) o (tot s o + k)) in
        let '(s, o1) :=
          if Nat.eqb o source then (set_src s (upd (src s) o (src s o + k)), [OAcc o k])
          else (s, []) in
        let o1 := o1 ++ [ORaised o] in
        match find_ctx s o with
        | (None, s) =>
            if negb (Nat.eqb o 0) then
              let '(s, o2) := m_raise fuel s (parent o) source k in (s, o1 ++ o2)
            else (s, o1)
        | (Some c, s) =>
            let diff := k - x_cnt c in
            if (diff =? 0) || Nat.eqb o 0 then (s, o1)
            else if diff >? 0 then
              let '(s, o2) := m_raise fuel s (parent o) source diff in (s, o1 ++ o2)
            else
              let '(s, o2) := m_drop fuel s (parent o) source (- diff) in (s, o1 ++ o2)
        end
  end.

Inductive label :=
| LRaise (o : nat) (k : Z)        (* raise_objection, 450-456 *)
| LDrop (o : nat) (k : Z)         (* drop_objection, 626-631 *)
| LBg                             (* a turn of m_execute_scheduled_forks, 773-793 *)
| LFork                           (* a process started there begins, 804-811 *)
| LNotify (i : nat)               (* drain time over: all_dropped, 854-857 *)
| LFinish (i : nat).              (* 860-874 and 825-836 *)

Definition remove_nth {A} (i : nat) (l : list A) : list A := firstn i l ++ skipn (S i) l.

Definition ostep (s : objn) (l : label) : objn * list out :=
  match l with
  | LRaise o k => m_raise (S o) s o o k
  | LDrop o k => m_drop (S o) s o o k
  | LBg =>
      (* one context is taken per wake-up, 777-793 *)
      if ev s then
        match sched s with
        | [] => (set_sched s [] false, [])
        | c :: l => (set_flist (set_sched s l false) (flist s ++ [c]) (S (nfork s)), [])
        end
      else (s, [])
  | LFork =>
      match nfork s with
      | O => (s, [])
      | S n =>
          match flist s with
          | [] => (set_flist s [] n, [])
          | c :: l => (set_drain (set_fctx (set_flist s l n) (upd (fctx s) (x_obj c) (Some c)))
                                 (drain s ++ [DProc c false]), [])
          end
      end
  | LNotify i =>
      match nth_error (drain s) i with
      | Some (DProc c false) =>
          (set_drain s (firstn i (drain s) ++ DProc c true :: skipn (S i) (drain s)),
           [OAllDropped (x_obj c)])
      | _ => (s, [])
      end
  | LFinish i =>
      match nth_error (drain s) i with
      | Some (DProc c true) =>
          let s := set_drain s (remove_nth i (drain s)) in
          let '(s, o1) :=
            if negb (Nat.eqb (x_obj c) 0)
            then m_drop (S (x_obj c)) s (parent (x_obj c)) (x_src c) (x_cnt c)
            else (s, []) in
          match fctx s (x_obj c) with
          | Some _ => (set_fctx s (upd (fctx s) (x_obj c) None), o1)
          | None => (s, o1 ++ [OKeyError])
          end
      | _ => (s, [])
      end
  end.

(** set_drain_time, 899-902, and its use, 850-852 *)
Definition set_drain_time (dt : nat -> Z) (o : option nat) (t : Z) : nat -> Z :=
  match o with None => upd dt 0%nat t | Some _ => dt end.
End Objection.
