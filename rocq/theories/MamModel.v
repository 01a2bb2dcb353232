(** Model of src/uvm/reg/uvm_mem_mam.py, reserve_region() (193-239); nothing else of the memory
    manager is implemented. The division is of floating point numbers (207), exact below 2^53.
    Left out: messages. *)
From Coq Require Import List Bool ZArith.
Import ListNotations.
Local Open Scope Z_scope.
Record cfg := Cfg { c_bytes : Z; c_start : Z; c_end : Z }.
Record region := Region { r_start : Z; r_end : Z; r_bytes : Z }.
(** [Raised]: the ZeroDivisionError (207), or the AttributeError for get_end_offset(), which
    regions do not have (219) *)
Inductive answer := Got (r : region) | Refused | Raised.
Definition reserve (c : cfg) (in_use : list region) (start n : Z) : list region * answer :=
  if n =? 0 then (in_use, Refused)
  else if start <? c_start c then (in_use, Refused)
  else if c_bytes c =? 0 then (in_use, Raised)
  else
    let last := start + Z.quot (n - 1) (c_bytes c) in
    if last >? c_end c then (in_use, Refused)
    else match in_use with
         | _ :: _ => (in_use, Raised)
         | [] => let r := Region start last ((last - start + 1) * c_bytes c) in ([r], Got r)
         end.
Fixpoint serve (c : cfg) (in_use : list region) (reqs : list (Z * Z)) : list region * list answer :=
  match reqs with
  | [] => (in_use, [])
  | (s, n) :: reqs => let (u, a) := reserve c in_use s n in let (u', l) := serve c u reqs in (u', a :: l)
  end.
