(** Model of src/uvm/base/uvm_callback.py: registration of callback objects
    with objects or type-wide, and the iteration calls
    get_first / get_next / get_last / get_prev.

    Objects and callback objects are numbers (Python identity). [isa c k] says
    whether callback object [c] is an instance of callback class [k].

    All callback classes share one registry. After [get()] (584-617) has run,
    - [m_base_inst.m_pool] is one dictionary, [pool] below;
    - [m_t_inst.m_tw_cb_q] read from [UVMCallbacks] or one of its subclasses
      (728, 762, 767, 940) is the class attribute of line 221, because
      [UVMCallbacks.m_t_inst] is a [UVMCallbacks] object without an attribute
      of that name: nobody ever writes that list, so it reads as [];
    - the type-wide queue that is written (331-334) and that is read through
      [m_get_tw_cb_q] (276) is the attribute of the object created at 240-241,
      [tw] below.
    Whether the dictionary seen at 336 is the same as [pool] depends on which
    class ran [get()] first (113-118, 237-242): if a subclass such as
    UVMReportCb did, both are the dictionary of line 103; if UVMCallbacks did,
    line 117 gave UVMCallbacks a dictionary of its own and the one seen at 336
    stays empty. [shared] records which.

    Not modelled: tracing messages, the "already a callback of that name"
    warning (289-307), display. [m_derived_types] and [m_this_type] are never
    filled by the library, so [check_registration] (138-169) is always true and
    the loops over them (269, 360) do nothing; the table of registered pairs
    (653-670) only selects another object with the same registry. *)
From Coq Require Import Arith List Bool.
From Verif Require Import Prelude.
Import ListNotations.

(** 584-617 and the attributes above; [m_enabled] of each callback (1328). *)
Record cbs := Cbs {
  tw : list nat;
  pool : nat -> option (list nat);
  pool_used : bool;          (* has_first() of [pool], uvm_pool.py 127 *)
  enabled : nat -> bool;
  shared : bool
}.

Definition cbs0 (sh : bool) : cbs := Cbs [] (fun _ => None) false (fun _ => true) sh.

Inductive cout :=
| CWarnReg (c : nat)     (* CBPREG warning *)
| CErrNone               (* CBUNREG error: None callback *)
| CExn.                  (* AttributeError: UVMPool has no get_first *)

Inductive ordering := Append | Prepend.

(** 281-286: [m_cb_find(q, cb) != -1]. *)
Definition cb_found (q : list nat) (c : nat) : bool := existsb (Nat.eqb c) q.

Definition put_cb (o : ordering) (q : list nat) (c : nat) : list nat :=
  match o with Append => q ++ [c] | Prepend => c :: q end.

(** 311-363. The queue is updated first; then, if the dictionary seen at 336 is
    not empty, 337 calls a method that UVMPool does not have. *)
Definition add_tw (s : cbs) (o : ordering) (c : nat) : cbs * list cout :=
  let q := if cb_found (tw s) c then tw s else put_cb o (tw s) c in
  (Cbs q (pool s) (pool_used s) (enabled s) (shared s),
   if shared s && pool_used s then [CExn] else []).

(** 702-780. For a typewide add line 728 looks in the list that reads as [].
    For an object, 748-768 start a new queue from that same empty list. *)
Definition add (s : cbs) (obj : option nat) (c : option nat) (o : ordering)
  : cbs * list cout :=
  match c with
  | None => (s, [CErrNone])
  | Some c =>
      match obj with
      | None => add_tw s o c
      | Some ob =>
          let q := match pool s ob with Some q => q | None => [] end in
          if cb_found q c
          then (Cbs (tw s) (upd (pool s) ob (Some q)) true (enabled s) (shared s),
                [CWarnReg c])
          else (Cbs (tw s) (upd (pool s) ob (Some (put_cb o q c))) true
                    (enabled s) (shared s), [])
      end
  end.

(** 1330-1355: returns the old mode. *)
Definition callback_mode (s : cbs) (c : nat) (on : option bool) : cbs * bool :=
  (match on with
   | Some b => Cbs (tw s) (pool s) (pool_used s) (upd (enabled s) c b) (shared s)
   | None => s
   end, enabled s c).

(** 921-948 (with [obj = None] the list read is the empty one). *)
Definition get_q (s : cbs) (obj : option nat) : list nat :=
  match obj with
  | None => []
  | Some ob => match pool s ob with Some q => q | None => tw s end
  end.

Section Iteration.
  Context (isa : nat -> nat -> bool).

  (** The test in the loops of 977-985, 1017-1025, 1057-1065, 1101-1109:
      without a class every entry is taken. *)
  Definition take (s : cbs) (k : option nat) (c : nat) : bool :=
    match k with
    | None => true
    | Some k => isa c k && enabled s c
    end.

  (** [for i in range(i, i + n): itr.m_i = i; if take: return q[i]], from
      iterator position [m]: new position and result. *)
  Fixpoint scan_up (s : cbs) (k : option nat) (q : list nat) (m i n : nat)
    : nat * option nat :=
    match n with
    | 0 => (m, None)
    | S n' =>
        match nth_error q i with
        | None => (m, None)
        | Some c => if take s k c then (i, Some c) else scan_up s k q i (S i) n'
        end
    end.

  (** [for i in range(n - 1, -1, -1)]. *)
  Fixpoint scan_down (s : cbs) (k : option nat) (q : list nat) (m n : nat)
    : nat * option nat :=
    match n with
    | 0 => (m, None)
    | S i =>
        match nth_error q i with
        | None => (m, None)
        | Some c => if take s k c then (i, Some c) else scan_down s k q i i
        end
    end.

  (** 950-985 *)
  Definition get_first (s : cbs) (obj k : option nat) (m : nat) : nat * option nat :=
    let q := get_q s obj in scan_up s k q m 0 (length q).
  (** 1027-1065 *)
  Definition get_next (s : cbs) (obj k : option nat) (m : nat) : nat * option nat :=
    let q := get_q s obj in scan_up s k q m (S m) (length q - S m).
  (** 989-1025 *)
  Definition get_last (s : cbs) (obj k : option nat) (m : nat) : nat * option nat :=
    let q := get_q s obj in scan_down s k q m (length q).
  (** 1068-1109. [range(m - 1, -1, -1)]; beyond the end of the queue Python would
      raise IndexError, here nothing is returned: the iterator never gets there. *)
  Definition get_prev (s : cbs) (obj k : option nat) (m : nat) : nat * option nat :=
    let q := get_q s obj in scan_down s k q m m.

  (** A user loop: [cb = it.first(); while cb: visit(cb); cb = it.next()]. The
      number of rounds is bounded by [n]; running out is [None]. *)
  Fixpoint loop_next (s : cbs) (obj k : option nat) (m : nat) (r : option nat)
      (n : nat) : option (list nat) :=
    match r with
    | None => Some []
    | Some c =>
        match n with
        | 0 => None
        | S n' =>
            let '(m', r') := get_next s obj k m in
            match loop_next s obj k m' r' n' with
            | Some l => Some (c :: l)
            | None => None
            end
        end
    end.
  Definition iterate (s : cbs) (obj k : option nat) (m n : nat) : option (list nat) :=
    let '(m', r) := get_first s obj k m in loop_next s obj k m' r n.

  Fixpoint loop_prev (s : cbs) (obj k : option nat) (m : nat) (r : option nat)
      (n : nat) : option (list nat) :=
    match r with
    | None => Some []
    | Some c =>
        match n with
        | 0 => None
        | S n' =>
            let '(m', r') := get_prev s obj k m in
            match loop_prev s obj k m' r' n' with
            | Some l => Some (c :: l)
            | None => None
            end
        end
    end.
  Definition iterate_back (s : cbs) (obj k : option nat) (m n : nat)
    : option (list nat) :=
    let '(m', r) := get_last s obj k m in loop_prev s obj k m' r n.
End Iteration.

(** Histories. *)
Inductive cop :=
| KAdd (obj : option nat) (c : option nat) (o : ordering)
| KMode (c : nat) (on : bool).

Definition cstep (s : cbs) (op : cop) : cbs * list cout :=
  match op with
  | KAdd obj c o => add s obj c o
  | KMode c on => (fst (callback_mode s c (Some on)), [])
  end.
