(** Model of the data access policies: src/uvm/dap/uvm_get_to_lock_dap.py,
    uvm_simple_lock_dap.py, uvm_set_before_get_dap.py. Values are any type; the value
    before the first set is Python's None. try_set is not implemented in any of them
    (uvm_set_get_dap_base.py raises), try_get only in the last. *)
From Coq Require Import List Bool.
Import ListNotations.

Section Dap.
Context {V : Type}.

Inductive out := OVal (v : option V) | OErr | OExn | OBool (b : bool).

(** uvm_get_to_lock_dap.py 55-96 *)
Record gtl := Gtl { g_locked : bool; g_val : option V }.
Definition gtl0 := Gtl false None.
Inductive glab := GSet (v : V) | GGet.
Definition gstep (y : gtl) (l : glab) : gtl * list out :=
  match l with
  | GSet v => if g_locked y then (y, [OErr]) else (Gtl (g_locked y) (Some v), [])   (* 67-71 *)
  | GGet => (Gtl true (g_val y), [OVal (g_val y)])                                  (* 94-96 *)
  end.

(** uvm_simple_lock_dap.py 50-124 *)
Record sl := Sl { s_locked : bool; s_val : option V }.
Definition sl0 := Sl false None.
Inductive slab := SSet (v : V) | SGet | SLock | SUnlock | SIsLocked.
Definition sstep (y : sl) (l : slab) : sl * list out :=
  match l with
  | SSet v => if s_locked y then (y, [OErr]) else (Sl (s_locked y) (Some v), [])    (* 62-66 *)
  | SGet => (y, [OVal (s_val y)])                                                   (* 88-89 *)
  | SLock => (Sl true (s_val y), [])                                                (* 107-108 *)
  | SUnlock => (Sl false (s_val y), [])                                             (* 113-114 *)
  | SIsLocked => (y, [OBool (s_locked y)])                                          (* 123-124 *)
  end.

(** uvm_set_before_get_dap.py 86-133 *)
Record sbg := Sbg { b_set : bool; b_val : option V }.
Definition sbg0 := Sbg false None.
Inductive blab := BSet (v : V) | BGet | BTryGet (empty_list : bool).
Definition bstep (y : sbg) (l : blab) : sbg * list out :=
  match l with
  | BSet v => (Sbg true (Some v), [])                                               (* 96-98 *)
  | BGet => (y, if b_set y then [OVal (b_val y)] else [OErr; OVal (b_val y)])       (* 115-118 *)
  | BTryGet e =>                                                                    (* 127-133 *)
      (y, if e then if b_set y then [OVal (b_val y); OBool true] else [OBool false]
          else [OExn])           (* uvm_globals.py 450-456 *)
  end.
End Dap.
Arguments glab : clear implicits.
Arguments slab : clear implicits.
Arguments blab : clear implicits.
Arguments out : clear implicits.
