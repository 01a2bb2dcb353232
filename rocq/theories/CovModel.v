(** Model of the coverage models of a register model:
    src/uvm/reg/uvm_reg_block.py 79-82, 691-845, src/uvm/reg/uvm_reg.py 96-97, 2177-2408,
    src/uvm/reg/uvm_mem.py 119-124, 1609-1716. *)
From Coq Require Import List Bool Arith ZArith.
From Verif Require Import Prelude ResourceModel.
Import ListNotations.
Local Open Scope Z_scope.

(** Sets of coverage models are Python integers, one bit per model. Blocks, registers and
    memories are numbered. [Block b regs mems blks] is a block with the registers, memories
    and blocks of its pools in their order; a structure once built is not changed here. *)
Inductive tree := Block (b : nat) (regs mems : list nat) (blks : list tree).

(** has_cover and cover_on: uvm_reg_block.py 81-82, uvm_reg.py 96-97, uvm_mem.py 119, 124.
    False, to which uvm_reg.py 97 sets the second, is 0. *)
Record cover := Cover { has_cover : Z; cover_on : Z }.
Definition covers := nat -> cover.
Definition new_cover (h : covers) (e : nat) (has_coverage : Z) : covers := upd h e (Cover has_coverage 0).

(** add_coverage: uvm_reg_block.py 715-729, uvm_reg.py 2266-2284, uvm_mem.py 1631-1632 *)
Definition add_coverage (h : covers) (e : nat) (models : Z) : covers :=
  upd h e (Cover (Z.lor (has_cover (h e)) models) (cover_on (h e))).
(** has_coverage: uvm_reg_block.py 732-743, uvm_reg.py 2286-2302, uvm_mem.py 1645-1646 *)
Definition has_coverage (h : covers) (e : nat) (models : Z) : bool :=
  Z.land (has_cover (h e)) models =? models.
(** get_coverage: uvm_reg_block.py 792-795, uvm_reg.py 2340-2359, uvm_mem.py 1692-1695 *)
Definition get_coverage (h : covers) (e : nat) (is_on : Z) : bool :=
  if negb (has_coverage h e is_on) then false else Z.land (cover_on (h e)) is_on =? is_on.

(** set_coverage of a register (uvm_reg.py 2305-2337) or memory (uvm_mem.py 1671-1677), with
    the value returned *)
Definition set_element (h : covers) (e : nat) (is_on : Z) : covers * Z :=
  if is_on =? 0 then (upd h e (Cover (has_cover (h e)) is_on), is_on)
  else let on := Z.land (has_cover (h e)) is_on in (upd h e (Cover (has_cover (h e)) on), on).
(** set_coverage of a block, uvm_reg_block.py 746-779 *)
Fixpoint set_block (h : covers) (t : tree) (is_on : Z) : covers * Z :=
  let '(Block b regs mems blks) := t in
  let h := upd h b (Cover (has_cover (h b)) (Z.land (has_cover (h b)) is_on)) in
  let h := fold_left (fun h rg => fst (set_element h rg is_on)) regs h in
  let h := fold_left (fun h mem => fst (set_element h mem is_on)) mems h in
  let h := fold_left (fun h blk => fst (set_block h blk is_on)) blks h in
  (h, cover_on (h b)).

(** sample_values of a block, uvm_reg_block.py 838-845: the registers whose sample_values
    (uvm_reg.py 2391-2408, for the user to define) is called *)
Fixpoint sample_values (t : tree) : list nat :=
  let '(Block _ regs _ blks) := t in regs ++ flat_map sample_values blks.

(** Histories *)
Inductive call :=
| New (e : nat) (has_coverage : Z)
| AddCoverage (e : nat) (models : Z)
| SetElement (e : nat) (is_on : Z)
| SetBlock (t : tree) (is_on : Z).
Definition cstep (h : covers) (c : call) : covers :=
  match c with
  | New e m => new_cover h e m
  | AddCoverage e m => add_coverage h e m
  | SetElement e m => fst (set_element h e m)
  | SetBlock t m => fst (set_block h t m)
  end.
Definition crun (cs : list call) : covers := fold_left cstep cs (fun _ => Cover 0 0).

(** ** Which models to build *)
(** Scopes and full names, with "uvm_reg::" before them, are numbered; [smatch] as in
    ResourceModel.v, [name] is the number of "include_coverage". The three build_coverage
    (uvm_reg_block.py 691-712, uvm_reg.py 2239-2263, uvm_mem.py 1609-1615) are the same:
    the value read is appended to a list, whose first element is taken; None stands for
    the exception that raises if there is none. *)
Section Build.
Context (smatch : nat -> nat -> bool) (name : nat).
(** include_coverage, uvm_reg.py 2178-2236 *)
Definition include_coverage (s : pool) (scope : nat) (models : Z) : pool := rdb_set s scope name models.
Definition build_coverage (s : pool) (full_name : nat) (models : Z) : option Z :=
  let cov_arr := match read_by_name smatch s full_name name with
                 | Some (Some v) => [v]
                 | _ => []
                 end in
  match cov_arr with
  | [] => None
  | v :: _ => Some (Z.land v models)
  end.
End Build.
