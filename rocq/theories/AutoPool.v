(** Automatic configuration on top of the resource pool of ResourceModel.v: the order of
    the names in rtab, which that model leaves out, and the resources visible from a path. *)
From Coq Require Import List Bool Arith ZArith Ascii Lia.
From Verif Require Import Prelude SvModel SvSpec ResourceModel AutoModel.
Import ListNotations.
Local Open Scope nat_scope.

Section Pool.
Context (smatch : nat -> nat -> bool).

(** uvm_resource.py 1039-1052: the name under which an operation stores a resource *)
Definition op_name (s : pool) (o : rop) : option nat :=
  match o with
  | RdbSet _ n _ => Some n
  | PoolSet id _ => Some (r_name (ResourceModel.heap s id))
  | ConfigSet _ _ _ _ f _ => Some f
  | _ => None
  end.
(** keys of rtab: a new key is put at the end, an existing one keeps its place *)
Definition add_name (names : list nat) (n : option nat) : list nat :=
  match n with
  | Some n => if existsb (Nat.eqb n) names then names else names ++ [n]
  | None => names
  end.
(** only resources that were created can be stored *)
Definition op_ok (s : pool) (o : rop) : Prop :=
  match o with PoolSet id _ => id < next s | _ => True end.
Inductive reach : pool -> list nat -> Prop :=
| reach0 : reach pool0 []
| reach_step s names o : reach s names -> op_ok s o -> reach (rstep smatch s o) (add_name names (op_name s o)).

(** Names and values as apply_config_settings sees them *)
Context (nm : nat -> str) (vk : Z -> value).
Definition as_rsrc (s : pool) (id : nat) : rsrc :=
  let r := ResourceModel.heap s id in
  Rsrc (nm (r_name r)) (r_prec r) (match r_val r with Some z => vk z | None => VNone end).
Definition visible_ids (s : pool) (names : list nat) (path : nat) : list nat :=
  lookup_scope (fun id => smatch (r_scope (ResourceModel.heap s id)) path) (map (rtab s) names).
Definition visible (s : pool) (names : list nat) (path : nat) : list rsrc := map (as_rsrc s) (visible_ids s names path).
End Pool.
