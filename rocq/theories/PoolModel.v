(** Model of UVMPool and UVMObjectStringPool (src/uvm/base/uvm_pool.py). *)
From Coq Require Import ZArith List Bool Arith Lia.
From Verif Require Import Prelude PyList.
Import ListNotations.
Open Scope Z_scope.

Section Pool.
Context {K V : Type} (eq_dec : forall a b : K, {a = b} + {a <> b}).

(** Python dict / OrderedDict: association list in insertion order. *)
Definition dict := list (K * V).
Definition d_keys (d : dict) : list K := map fst d.
Fixpoint d_get (d : dict) (k : K) : option V :=
  match d with
  | [] => None
  | (k', v) :: d => if eq_dec k k' then Some v else d_get d k
  end.
Definition d_in (d : dict) (k : K) : bool := match d_get d k with Some _ => true | None => false end.
(** [d[k] = v]: in place for an existing key, else at the end. *)
Fixpoint d_set (d : dict) (k : K) (v : V) : dict :=
  match d with
  | [] => [(k, v)]
  | (k', v') :: d => if eq_dec k k' then (k', v) :: d else (k', v') :: d_set d k v
  end.
(** [del d[k]] *)
Fixpoint d_del (d : dict) (k : K) : dict :=
  match d with
  | [] => []
  | (k', v') :: d => if eq_dec k k' then d else (k', v') :: d_del d k
  end.

(** uvm_pool.py:43-47. [made] counts the objects made by [T()], so that
    distinct calls make distinct objects; it is not a field of the class. *)
Record pool := Pool { dct : dict; ptr : Z; made : nat }.
Definition pool0 : pool := Pool [] (-1) 0.

Inductive pres :=
| PVal (v : V) | PNone | PFalse | PKey (k : K) | PBool (b : bool) | PNum (n : Z)
| PRaise.

(** [T] is the optional constructor argument of the pool; the model assumes
    that keys are not None (None as a key of [delete] means "all"). *)
Variable T : option (nat -> V).

(** uvm_pool.py:78-95 *)
Definition p_get (p : pool) (k : K) : pool * pres :=
  if d_in (dct p) k then
    (p, match d_get (dct p) k with Some v => PVal v | None => PRaise end)
  else match T with
  | Some mk =>
      let p' := Pool (d_set (dct p) k (mk (made p))) (ptr p) (S (made p)) in
      (p', match d_get (dct p') k with Some v => PVal v | None => PRaise end)
  | None => (p, PNone)
  end.

(** uvm_pool.py:97-98 and 196-203 *)
Definition p_add (p : pool) (k : K) (v : V) : pool := Pool (d_set (dct p) k v) (ptr p) (made p).

(** uvm_pool.py:100-101 *)
Definition p_num (p : pool) : Z := zlen (d_keys (dct p)).

(** uvm_pool.py:109-114 *)
Definition p_delete (p : pool) (k : option K) : pool :=
  match k with
  | None => Pool [] (ptr p) (made p)
  | Some k => if d_in (dct p) k then Pool (d_del (dct p) k) (ptr p) (made p) else p
  end.

(** uvm_pool.py:116-117, 187-194 *)
Definition p_exists (p : pool) (k : K) : bool := d_in (dct p) k.

(** uvm_pool.py:119-125: [next(reversed(d))] is the last key. *)
Definition p_last (p : pool) : pool * pres :=
  if 0 <? p_num p then
    (Pool (dct p) (p_num p - 1) (made p),
     match rev (d_keys (dct p)) with k :: _ => PKey k | [] => PRaise end)
  else (p, PFalse).

(** uvm_pool.py:133-138 *)
Definition p_first (p : pool) : pool * pres :=
  match d_keys (dct p) with
  | k :: _ => (Pool (dct p) 0 (made p), PKey k)
  | [] => (p, PFalse)
  end.

(** uvm_pool.py:127-131 *)
Definition p_has_first (p : pool) : bool := 0 <? p_num p.

(** uvm_pool.py:140-143, 152-155 *)
Definition p_has_next (p : pool) : bool := ptr p <? p_num p - 1.
Definition p_has_prev (p : pool) : bool := 0 <? ptr p.

(** uvm_pool.py:145-150, 157-162; the pointer is updated before the list
    subscript that may raise. *)
Definition p_next (p : pool) : pool * pres :=
  if p_has_next p then
    let p' := Pool (dct p) (ptr p + 1) (made p) in
    (p', match py_get (d_keys (dct p)) (ptr p') with Some k => PKey k | None => PRaise end)
  else (p, PNone).
Definition p_prev (p : pool) : pool * pres :=
  if p_has_prev p then
    let p' := Pool (dct p) (ptr p - 1) (made p) in
    (p', match py_get (d_keys (dct p)) (ptr p') with Some k => PKey k | None => PRaise end)
  else (p, PNone).

(** uvm_pool.py:205-216 *)
Definition p_getitem (p : pool) (k : K) : pres :=
  if d_in (dct p) k then match d_get (dct p) k with Some v => PVal v | None => PRaise end
  else PRaise.

Inductive pop :=
| PGet (k : K) | PAdd (k : K) (v : V) | PNumOp | PDelete (k : option K) | PExists (k : K)
| PLast | PFirst | PHasNext | PNext | PHasPrev | PPrev | PGetItem (k : K).

Definition pstep (p : pool) (o : pop) : pool * list pres :=
  match o with
  | PGet k => let '(p', r) := p_get p k in (p', [r])
  | PAdd k v => (p_add p k v, [])
  | PNumOp => (p, [PNum (p_num p)])
  | PDelete k => (p_delete p k, [])
  | PExists k => (p, [PBool (p_exists p k)])
  | PLast => let '(p', r) := p_last p in (p', [r])
  | PFirst => let '(p', r) := p_first p in (p', [r])
  | PHasNext => (p, [PBool (p_has_next p)])
  | PNext => let '(p', r) := p_next p in (p', [r])
  | PHasPrev => (p, [PBool (p_has_prev p)])
  | PPrev => let '(p', r) := p_prev p in (p', [r])
  | PGetItem k => (p, [p_getitem p k])
  end.

Definition prun (os : list pop) := run_machine pstep pool0 os.

(** The iteration idiom, as in uvm_pool.py:326-333: first(), then next() while
    has_next(). [None] is "out of fuel". *)
Fixpoint next_loop (fuel : nat) (p : pool) : option (pool * list pres) :=
  match fuel with
  | O => None
  | S fuel =>
      if p_has_next p then
        let '(p1, r) := p_next p in
        match next_loop fuel p1 with
        | Some (p2, rs) => Some (p2, r :: rs)
        | None => None
        end
      else Some (p, [])
  end.
Definition iterate (fuel : nat) (p : pool) : option (list pres) :=
  if p_has_first p then
    let '(p1, r) := p_first p in
    match next_loop fuel p1 with Some (_, rs) => Some (r :: rs) | None => None end
  else Some [].

(** The mirror idiom with last()/prev(). *)
Fixpoint prev_loop (fuel : nat) (p : pool) : option (pool * list pres) :=
  match fuel with
  | O => None
  | S fuel =>
      if p_has_prev p then
        let '(p1, r) := p_prev p in
        match prev_loop fuel p1 with
        | Some (p2, rs) => Some (p2, r :: rs)
        | None => None
        end
      else Some (p, [])
  end.
Definition iterate_back (fuel : nat) (p : pool) : option (list pres) :=
  if p_has_first p then
    let '(p1, r) := p_last p in
    match prev_loop fuel p1 with Some (_, rs) => Some (r :: rs) | None => None end
  else Some [].

(** uvm_pool.py:167-178, do_print: the keys it prints ([while has_next]: the
    loop starts from wherever the pointer is). *)
Definition do_print (fuel : nat) (p : pool) : option (pool * list pres) := next_loop fuel p.

(** UVMObjectStringPool, uvm_pool.py:286-300: [mk made] is Constructor(key). *)
Definition s_get (mk : nat -> K -> V) (p : pool) (k : K) : pool * pres :=
  let p' := if negb (d_in (dct p) k)
            then Pool (d_set (dct p) k (mk (made p) k)) (ptr p) (S (made p)) else p in
  (p', match d_get (dct p') k with Some v => PVal v | None => PRaise end).

(** UVMObjectStringPool.delete, uvm_pool.py:303-313: calls itself. [None] when
    the recursion is not finished within [fuel] calls. *)
Fixpoint s_delete (fuel : nat) (p : pool) (k : K) : option pool :=
  match fuel with
  | O => None
  | S fuel => if negb (p_exists p k) then Some p else s_delete fuel p k
  end.

End Pool.
Arguments dict : clear implicits.
Arguments pool : clear implicits.
Arguments pres : clear implicits.
Arguments pop : clear implicits.
