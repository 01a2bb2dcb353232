(** Model of the choice of register and memory tests and of what they leave out:
    src/uvm/reg/sequences/uvm_reg_mem_built_in_seq.py 67-141,
    uvm_reg_bit_bash_seq.py 247-272, uvm_reg_access_seq.py 239-267, uvm_mem_access_seq.py 250-279,
    uvm_mem_walk_seq.py 253-281, src/uvm/reg/uvm_reg_model.py 290-296, 404-417. *)
From Coq Require Import List Bool Arith ZArith.
From Verif Require Import Prelude ResourceModel.
Import ListNotations.
Local Open Scope nat_scope.

Inductive test := HwReset | BitBash | RegAccess | MemAccess | MemWalk.
(** Names of resources *)
Inductive flag :=
| NO_REG_TESTS | NO_REG_HW_RESET_TEST | NO_REG_BIT_BASH_TEST | NO_REG_ACCESS_TEST
| NO_MEM_TESTS | NO_MEM_ACCESS_TEST | NO_MEM_WALK_TEST.

(** Full names with "REG::" before them are numbered. A block with its registers, memories
    and blocks, as get_registers(UVM_NO_HIER), get_memories(UVM_NO_HIER) give them. *)
Inductive node := Node (path : nat) (regs mems : list nat) (subs : list node).
Definition path (n : node) : nat := let 'Node p _ _ _ := n in p.

Section Exclude.
(** [smatch] as in ResourceModel.v; [num] numbers the names; [door e]: register or memory [e]
    has a back door or an HDL path. *)
Context (smatch : nat -> nat -> bool) (num : flag -> nat) (door : nat -> bool).

(** UVMResourceDb.get_by_name(..., 0) is not None; uvm_reg_model.py 404-413 *)
Definition found (s : pool) (p : nat) (f : flag) : bool :=
  match get_by_name smatch s p (num f) with Some _ => true | None => false end.
Definition reg_test_off (s : pool) (p : nat) (fs : list flag) : bool :=
  fold_left (fun res f => res || found s p f) fs false.

(** UVMRegMemBuiltInSeq.body, 67-141: the tests started, in order. [tests] is the mask,
    [model] the full name of the model, None if there is none (69-71). The part for shared
    accesses (120-131) is commented out. *)
Definition start_if (b : bool) (t : test) : list test := if b then [t] else [].
Definition body (s : pool) (tests : Z) (model : option nat) : list test :=
  match model with
  | None => []
  | Some p =>
      let bit m := negb (Z.land tests m =? 0)%Z in
      start_if (bit 1%Z && negb (found s p NO_REG_TESTS) && negb (found s p NO_REG_HW_RESET_TEST)) HwReset ++
      start_if (bit 2%Z && negb (found s p NO_REG_TESTS) && negb (found s p NO_REG_BIT_BASH_TEST)) BitBash ++
      start_if (bit 4%Z && negb (found s p NO_REG_TESTS) && negb (found s p NO_REG_ACCESS_TEST)) RegAccess ++
      start_if (bit 8%Z && negb (found s p NO_REG_TESTS) && negb (found s p NO_MEM_TESTS)
                && negb (found s p NO_MEM_ACCESS_TEST)) MemAccess ++
      start_if (bit 32%Z && negb (found s p NO_REG_TESTS) && negb (found s p NO_MEM_WALK_TEST)) MemWalk
  end.

(** get_blocks, uvm_reg_block.py 447-452, hierarchical by default *)
Fixpoint get_blocks (n : node) : list node :=
  let 'Node _ _ _ subs := n in
  (fix go (l : list node) : list node := match l with [] => [] | c :: l => c :: get_blocks c ++ go l end) subs.

(** The head of do_block: bit bash 250-254, register access 243-245, memory access 252-253,
    memory walk 256-262 *)
Definition skip_block (t : test) (s : pool) (p : nat) : bool :=
  match t with
  | HwReset => found s p NO_REG_TESTS || found s p NO_REG_HW_RESET_TEST
  | BitBash => found s p NO_REG_TESTS || found s p NO_REG_BIT_BASH_TEST
  | RegAccess => reg_test_off s p [NO_REG_TESTS] || reg_test_off s p [NO_REG_ACCESS_TEST]
  | MemAccess => reg_test_off s p [NO_REG_TESTS; NO_MEM_TESTS; NO_MEM_ACCESS_TEST]
  | MemWalk => found s p NO_REG_TESTS || found s p NO_MEM_TESTS || found s p NO_MEM_ACCESS_TEST
  end.
(** A register or memory left out: bit bash 260-264, register access 251-259, memory access
    260-270, memory walk 268-274. The sequences for one register or memory ask once more for
    the same names (e.g. uvm_mem_walk_seq.py 103-109). *)
Definition skip_element (t : test) (s : pool) (p : nat) : bool :=
  match t with
  | HwReset => found s p NO_REG_HW_RESET_TEST || found s p NO_REG_TESTS
  | BitBash => found s p NO_REG_TESTS || found s p NO_REG_BIT_BASH_TEST
  | RegAccess => reg_test_off s p [NO_REG_TESTS] || reg_test_off s p [NO_REG_ACCESS_TEST] || negb (door p)
  | MemAccess => reg_test_off s p [NO_REG_TESTS; NO_MEM_TESTS; NO_MEM_ACCESS_TEST] || negb (door p)
  | MemWalk => found s p NO_REG_TESTS || found s p NO_MEM_TESTS || found s p NO_MEM_WALK_TEST
  end.
Definition elements (t : test) (n : node) : list nat :=
  let 'Node _ regs mems _ := n in
  match t with HwReset | BitBash | RegAccess => regs | MemAccess | MemWalk => mems end.
(** do_block of all but the reset test, whose loop goes over maps (RegSeqModel.v): the
    registers or memories tested. [None]: out of fuel. *)
Fixpoint each (f : node -> option (list nat)) (l : list node) : option (list nat) :=
  match l with
  | [] => Some []
  | b :: l => match f b, each f l with Some x, Some y => Some (x ++ y) | _, _ => None end
  end.
Fixpoint do_block (fuel : nat) (t : test) (s : pool) (n : node) : option (list nat) :=
  match fuel with
  | O => None
  | S fuel =>
      if skip_block t s (path n) then Some []
      else option_map (app (filter (fun e => negb (skip_element t s e)) (elements t n)))
                      (each (do_block fuel t s) (get_blocks n))
  end.
(** The built-in sequence on [n]: the tests it starts with what they test. What the reset
    test does is in RegSeqModel.v. *)
Definition built_in (fuel : nat) (s : pool) (tests : Z) (n : node) : list (test * option (list nat)) :=
  map (fun t => (t, do_block fuel t s n))
      (filter (fun t => match t with HwReset => false | _ => true end) (body s tests (Some (path n)))).
End Exclude.
