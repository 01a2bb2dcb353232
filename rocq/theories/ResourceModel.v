(** Model of the resource pool and the configuration database:
    src/uvm/base/uvm_resource.py, uvm_resource_db.py, uvm_config_db.py. *)
From Coq Require Import List Bool Arith ZArith Lia.
From Verif Require Import Prelude.
Import ListNotations.
Open Scope Z_scope.

Section Resource.
(** Names, scope patterns and paths are numbered, names being non-empty.
    [smatch pattern path] is match_scope (uvm_resource.py:426-438), whose
    string matching is modelled in SvModel.v. *)
Context (smatch : nat -> nat -> bool).

(** uvm_resource.py:227-256, 628-631. The access records, which reads and
    writes keep for auditing, the modification event and the type table (one
    Python class serves all types, 654-670) are left out. *)
Record rsrc := Rsrc {
  r_name : nat; r_scope : nat; r_prec : Z; r_val : option Z; r_ro : bool; r_mod : bool }.
Definition with_val (r : rsrc) v := Rsrc (r_name r) (r_scope r) (r_prec r) v (r_ro r) true.
Definition with_ro (r : rsrc) b := Rsrc (r_name r) (r_scope r) (r_prec r) (r_val r) b (r_mod r).
Definition with_prec (r : rsrc) p := Rsrc (r_name r) (r_scope r) p (r_val r) (r_ro r) (r_mod r).

(** context, resolved instance name, field name. The code joins the last two
    by "__M_UVM__" (uvm_config_db.py:225); names containing that string are
    not considered. *)
Definition ckey : Type := nat * nat * nat.
Definition ckey_eqb (a b : ckey) : bool :=
  let '(a1, a2, a3) := a in let '(b1, b2, b3) := b in
  Nat.eqb a1 b1 && Nat.eqb a2 b2 && Nat.eqb a3 b3.

Record pool := Pool {
  heap : nat -> rsrc;                (* resource objects *)
  next : nat;
  rtab : nat -> list nat;            (* rtab, per name *)
  cfg : ckey -> option nat           (* UVMConfigDb.m_rsc *)
}.
Definition default_precedence : Z := 1000.
Definition rsrc0 : rsrc := Rsrc 0 0 default_precedence None false false.
Definition pool0 : pool := Pool (fun _ => rsrc0) 0 (fun _ => []) (fun _ => None).

Definition set_heap (s : pool) (id : nat) (r : rsrc) : pool :=
  Pool (upd (heap s) id r) (next s) (rtab s) (cfg s).

(** UVMResource(name, scope), 628-631 *)
Definition new_rsrc (s : pool) (name scope : nat) : pool * nat :=
  (Pool (upd (heap s) (next s) (Rsrc name scope default_precedence None false false))
        (S (next s)) (rtab s) (cfg s), next s).

(** write, 792-825; the error report of a read-only resource is left out *)
Definition write (s : pool) (id : nat) (v : Z) : pool :=
  let r := heap s id in
  if r_ro r then s
  else match r_val r with
       | Some v0 => if v0 =? v then s else set_heap s id (with_val r (Some v))
       | None => set_heap s id (with_val r (Some v))
       end.
(** read, 787-790 *)
Definition read (s : pool) (id : nat) : option Z := r_val (heap s id).
(** set_read_only 277-278, set_read_write 289-290 *)
Definition set_ro (s : pool) (id : nat) (b : bool) : pool := set_heap s id (with_ro (heap s id) b).

(** UVMResourcePool.set, 1005-1068; [name_override] is override & NAME_OVERRIDE *)
Definition pool_set (s : pool) (id : nat) (name_override : bool) : pool :=
  let name := r_name (heap s id) in
  let rq := rtab s name in
  Pool (heap s) (next s)
       (upd (rtab s) name (if name_override then id :: rq else rq ++ [id])) (cfg s).

(** lookup_name, 1172-1221 *)
Definition lookup_name (s : pool) (scope name : nat) : list nat :=
  filter (fun id => smatch (r_scope (heap s id)) scope) (rtab s name).

(** get_highest_precedence, 1223-1256 and (with T None) 846-903 *)
Fixpoint highest (s : pool) (best : nat) (prec : Z) (q : list nat) : nat :=
  match q with
  | [] => best
  | r :: q => if r_prec (heap s r) >? prec then highest s r (r_prec (heap s r)) q
              else highest s best prec q
  end.
Definition get_highest_precedence (s : pool) (q : list nat) : option nat :=
  match q with
  | [] => None
  | r :: q => Some (highest s r (r_prec (heap s r)) q)
  end.
(** get_by_name, 1294-1326, 712-736; uvm_resource_db.py:89-95 *)
Definition get_by_name (s : pool) (scope name : nat) : option nat :=
  get_highest_precedence s (lookup_name s scope name).

(** set_priority_queue, 1487-1519: both priorities append *)
Fixpoint remove_first (id : nat) (q : list nat) : list nat :=
  match q with
  | [] => []
  | r :: q => if Nat.eqb r id then q else r :: remove_first id q
  end.
Definition set_priority_name (s : pool) (id : nat) : pool :=
  let name := r_name (heap s id) in
  let q := rtab s name in
  if existsb (Nat.eqb id) q then
    Pool (heap s) (next s) (upd (rtab s) name (remove_first id q ++ [id])) (cfg s)
  else s.

(** uvm_resource_db.py:149-156 *)
Definition rdb_set (s : pool) (scope name : nat) (v : Z) : pool :=
  let '(s, id) := new_rsrc s name scope in
  pool_set (write s id v) id false.
(** uvm_resource_db.py:239-251 *)
Definition read_by_name (s : pool) (scope name : nat) : option (option Z) :=
  match get_by_name s scope name with Some id => Some (read s id) | None => None end.
(** uvm_resource_db.py:292-301 *)
Definition write_by_name (s : pool) (scope name : nat) (v : Z) : pool :=
  match get_by_name s scope name with Some id => write s id v | None => s end.

(** UVMConfigDb.set, uvm_config_db.py:151-261. [inst] is the full pattern built
    in 208-213; [build] tells whether the current phase is build; [depth] is
    the depth of the context. Waiters (250-255) are never created, because
    wait_modified is commented out. *)
Definition config_set (s : pool) (ctx : nat) (depth : Z) (build : bool) (inst field : nat) (v : Z)
  : pool :=
  let key := (ctx, inst, field) in
  let prec := if build then default_precedence - depth else default_precedence in
  match cfg s key with
  | None =>
      let '(s, id) := new_rsrc s field inst in
      let s := Pool (heap s) (next s) (rtab s)
                    (fun k => if ckey_eqb k key then Some id else cfg s k) in
      let s := set_heap s id (with_prec (heap s id) prec) in
      let s := write s id v in
      pool_set s id true
  | Some id =>
      let s := set_heap s id (with_prec (heap s id) prec) in
      let s := write s id v in
      set_priority_name s id
  end.
(** UVMConfigDb.get with T None, uvm_config_db.py:90-148. (With a class T the
    resource object, not its value, is tested against T in 872-876.) *)
Definition config_get (s : pool) (path field : nat) : option (option Z) :=
  match get_highest_precedence s (lookup_name s path field) with
  | Some id => Some (read s id)
  | None => None
  end.

Inductive rop :=
| RdbSet (scope name : nat) (v : Z)
| WriteByName (scope name : nat) (v : Z)
| NewRsrc (name scope : nat)
| Write (id : nat) (v : Z)
| SetPrec (id : nat) (p : Z)
| SetRO (id : nat)
| SetRW (id : nat)
| PoolSet (id : nat) (override : bool)
| ConfigSet (ctx : nat) (depth : Z) (build : bool) (inst field : nat) (v : Z).
Definition rstep (s : pool) (o : rop) : pool :=
  match o with
  | RdbSet sc n v => rdb_set s sc n v
  | WriteByName sc n v => write_by_name s sc n v
  | NewRsrc n sc => fst (new_rsrc s n sc)
  | Write id v => write s id v
  | SetPrec id p => set_heap s id (with_prec (heap s id) p)
  | SetRO id => set_ro s id true
  | SetRW id => set_ro s id false
  | PoolSet id b => pool_set s id b
  | ConfigSet c d b i f v => config_set s c d b i f v
  end.
Definition rrun (ops : list rop) : pool := fold_left rstep ops pool0.
End Resource.
