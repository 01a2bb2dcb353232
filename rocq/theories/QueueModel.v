(** Model of UVMQueue (src/uvm/base/uvm_queue.py). *)
From Coq Require Import ZArith List Bool Arith Lia.
From Verif Require Import Prelude PyList.
Import ListNotations.
Open Scope Z_scope.

Section Queue.
Context {A : Type}.

(** What a call returns. [RDefault] is the 0 returned by [get] for an index out
    of range (uvm_queue.py:92-97), [RNone] is Python's None. *)
Inductive qres := RVal (x : A) | RDefault | RNone | RSize (n : Z) | RRaise.

Inductive qop :=
| QGet (i : Z) | QSize | QSetItem (i : Z) (x : A) | QGetItem (i : Z)
| QInsert (i : Z) (x : A) | QDelete (i : Z)
| QPopFront | QFront | QBack | QPopBack | QPushFront (x : A) | QPushBack (x : A)
| QSlice (i j : Z).

(** uvm_queue.py:80-98; the warning is not modelled. *)
Definition q_get (q : list A) (index : Z) : qres :=
  if (zlen q <=? index) || (index <? 0) then RDefault
  else match py_get q index with Some x => RVal x | None => RRaise end.

(** uvm_queue.py:116-128 *)
Definition q_setitem (q : list A) (i : Z) (x : A) : list A * qres :=
  if i <? zlen q then
    match py_set q i x with Some q' => (q', RNone) | None => (q, RRaise) end
  else (q, RRaise).

(** uvm_queue.py:131-149, integer subscript *)
Definition q_getitem (q : list A) (i : Z) : qres :=
  if i <? zlen q then match py_get q i with Some x => RVal x | None => RRaise end
  else RRaise.

(** uvm_queue.py:139-144, slice subscript: [range(slice.start, slice.stop)]
    reads the attributes of the builtin class, which are descriptors, not ints:
    TypeError for every slice. *)
Definition q_slice (q : list A) (i j : Z) : qres := RRaise.

(** uvm_queue.py:151-165 *)
Definition q_insert (q : list A) (index : Z) (x : A) : list A :=
  if (zlen q <=? index) || (index <? 0) then q else py_insert q index x.

(** uvm_queue.py:167-184; default argument -1 *)
Definition q_delete (q : list A) (index : Z) : list A :=
  if (zlen q <=? index) || (index <? -1) then q
  else if index =? -1 then []
  else match py_del q index with Some q' => q' | None => q end.

(** uvm_queue.py:186-200 *)
Definition q_pop_front (q : list A) : list A * qres :=
  match q with x :: q' => (q', RVal x) | [] => ([], RRaise) end.

(** uvm_queue.py:202-205 *)
Definition q_front (q : list A) : qres :=
  if 0 <? zlen q then match py_get q 0 with Some x => RVal x | None => RRaise end else RNone.

(** uvm_queue.py:207-210 *)
Definition q_back (q : list A) : qres :=
  if 0 <? zlen q then match py_get q (zlen q - 1) with Some x => RVal x | None => RRaise end
  else RNone.

(** uvm_queue.py:212-220: list.pop() *)
Definition q_pop_back (q : list A) : list A * qres :=
  match py_get q (-1), py_del q (-1) with
  | Some x, Some q' => (q', RVal x)
  | _, _ => (q, RRaise)
  end.

(** uvm_queue.py:222-240 *)
Definition q_push_front (q : list A) (x : A) : list A := py_insert q 0 x.
Definition q_push_back (q : list A) (x : A) : list A := q ++ [x].

Definition qstep (q : list A) (o : qop) : list A * qres :=
  match o with
  | QGet i => (q, q_get q i)
  | QSize => (q, RSize (zlen q))                   (* uvm_queue.py:100-114 *)
  | QSetItem i x => q_setitem q i x
  | QGetItem i => (q, q_getitem q i)
  | QInsert i x => (q_insert q i x, RNone)
  | QDelete i => (q_delete q i, RNone)
  | QPopFront => q_pop_front q
  | QFront => (q, q_front q)
  | QBack => (q, q_back q)
  | QPopBack => q_pop_back q
  | QPushFront x => (q_push_front q x, RNone)
  | QPushBack x => (q_push_back q x, RNone)
  | QSlice i j => (q, q_slice q i j)
  end.

Fixpoint qrun (q : list A) (os : list qop) : list A * list qres :=
  match os with
  | [] => (q, [])
  | o :: os => let '(q', r) := qstep q o in
               let '(q'', rs) := qrun q' os in (q'', r :: rs)
  end.

(** uvm_queue.py:261-273 *)
Fixpoint find_loop (f : A -> bool) (rest qq : list A) : list A :=
  match rest with
  | [] => qq
  | ee :: rest => find_loop f rest (if f ee then q_push_back qq ee else qq)
  end.
Definition find_with (q : list A) (f : A -> bool) : list A := find_loop f q [].

(** uvm_queue.py:275-282 *)
Fixpoint first_index_loop (f : A -> bool) (i : Z) (rest : list A) : Z :=
  match rest with
  | [] => -1
  | ee :: rest => if f ee then i else first_index_loop f (i + 1) rest
  end.
Definition find_first_index (q : list A) (f : A -> bool) : Z := first_index_loop f 0 q.

(** Several queue objects over a heap of Python lists, for [do_copy]
    (uvm_queue.py:249-253), which makes the copy share the list object of the
    source. [delete()] binds a new list object (line 182). *)
Record heap := Heap { store : nat -> list A; qref : nat -> nat; fresh : nat }.

Inductive hop := HOp (q : nat) (o : qop) | HCopy (dst src : nat).

Definition hstep (h : heap) (o : hop) : heap * list qres :=
  match o with
  | HOp q o =>
      let l := store h (qref h q) in
      let '(l', r) := qstep l o in
      match o with
      | QDelete (-1) =>
          (Heap (upd (store h) (fresh h) l') (upd (qref h) q (fresh h)) (S (fresh h)), [r])
      | _ => (Heap (upd (store h) (qref h q) l') (qref h) (fresh h), [r])
      end
  | HCopy d s => (Heap (store h) (upd (qref h) d (qref h s)) (fresh h), [])
  end.

(** Initially object [q] has its own list [q] below [n]. *)
Definition heap0 (n : nat) : heap := Heap (fun _ => []) (fun q => q) n.
Definition hrun (n : nat) (os : list hop) := run_machine hstep (heap0 n) os.
Definition contents (h : heap) (q : nat) : list A := store h (qref h q).

End Queue.
Arguments qres : clear implicits.
Arguments qop : clear implicits.
Arguments heap : clear implicits.
Arguments hop : clear implicits.
