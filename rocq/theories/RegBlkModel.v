(** Model of register blocks, src/uvm/reg/uvm_reg_block.py: going through registers and blocks
    (447-485), lookup by name (596-625), reset, needs_update, update and mirror (889-1021),
    construction and locking (84-119, 213-320), HDL paths (1179-1335), and the HDL paths of
    registers, uvm_reg.py 1882-2068 (those of memories, uvm_mem.py 1304-1400, are the same).

    Left out: memories and virtual registers of a block, coverage, the address maps made when
    the top block is locked (RegMapModel.v), the check of the names of the top blocks, and
    messages. *)
From Coq Require Import List Bool Arith ZArith String.
From Verif Require Import Prelude.
Import ListNotations.
Local Open Scope nat_scope.
Local Open Scope list_scope.

(** ** Going through a block *)
(** Registers are numbers. A block has registers and blocks in the order they were added. *)
Inductive blk := Blk (bid : nat) (regs : list nat) (subs : list blk).
Definition bid (b : blk) : nat := let 'Blk i _ _ := b in i.
Definition regs (b : blk) : list nat := let 'Blk _ r _ := b in r.
Definition subs (b : blk) : list blk := let 'Blk _ _ s := b in s.

(** 447-452 *)
Fixpoint get_blocks (b : blk) : list blk :=
  let 'Blk _ _ s := b in
  (fix go (l : list blk) : list blk := match l with [] => [] | c :: l => c :: get_blocks c ++ go l end) s.
(** 479-485 *)
Fixpoint get_registers (b : blk) : list nat :=
  let 'Blk _ r s := b in
  r ++ (fix go (l : list blk) : list nat := match l with [] => [] | c :: l => get_registers c ++ go l end) s.

(** 610-625; [name] of a register *)
Definition get_reg_by_name (name : nat -> nat) (b : blk) (n : nat) : option nat :=
  match find (fun r => Nat.eqb (name r) n) (regs b) with
  | Some r => Some r
  | None =>
      (fix go (l : list blk) : option nat :=
         match l with
         | [] => None
         | c :: l => match find (fun r => Nat.eqb (name r) n) (get_registers c) with Some r => Some r | None => go l end
         end) (subs b)
  end.

(** The state [X] is that of all registers and of the design. update() and mirror() of a register
    give its status, [None] when they return without one. *)
Inductive stat := IsOk | HasX | NotOk.
Definition bad (s : stat) : bool := match s with NotOk => true | _ => false end.
Section Ops.
Context {X : Type} (needs : nat -> X -> bool) (upd_reg mir_reg : nat -> X -> X * option stat) (rst_reg : nat -> X -> X).

(** 891-897 *)
Fixpoint reset (b : blk) (x : X) : X :=
  let 'Blk _ r s := b in
  (fix go (l : list blk) (x : X) : X := match l with [] => x | c :: l => go l (reset c x) end) s (fold_left (fun x i => rst_reg i x) r x).
(** 920-928 *)
Fixpoint needs_update (b : blk) (x : X) : bool :=
  let 'Blk _ r s := b in
  existsb (fun i => needs i x) r ||
  (fix go (l : list blk) : bool := match l with [] => false | c :: l => needs_update c x || go l end) s.

(** 961-970: the registers updated, and how it ends: at the end of the list, with a status that
    is returned, or with the IndexError of stat[0] *)
Inductive fin := Go | Ret (s : stat) | Raise.
Fixpoint update_regs (rs : list nat) (x : X) : X * list nat * fin :=
  match rs with
  | [] => (x, [], Go)
  | r :: rs =>
      if needs r x then
        let (x1, s) := upd_reg r x in
        match s with
        | None => (x1, [r], Raise)
        | Some s => if bad s then (x1, [r], Ret s)
                    else let '(x2, l, f) := update_regs rs x1 in (x2, r :: l, f)
        end
      else update_regs rs x
  end.
(** 947-978. needs_update() returns 0 or 1, which is not False (952), so the block is gone through
    in any case. The status of a child block is looked for in a list that was not passed to it,
    which raises an IndexError after the first child (974-976). *)
Fixpoint update (b : blk) (x : X) : X * list nat * option stat :=
  let 'Blk _ r s := b in
  let '(x1, l, f) := update_regs r x in
  match f with
  | Raise => (x1, l, None)
  | Ret st => (x1, l, Some st)
  | Go =>
      match s with
      | [] => (x1, l, Some IsOk)
      | c :: _ => let '(x2, l2, _) := update c x1 in (x2, l ++ l2, None)
      end
  end.
(** 1004-1021; [st]: the status so far *)
Fixpoint mirror_regs (rs : list nat) (st : stat) (x : X) : X * list nat * option stat :=
  match rs with
  | [] => (x, [], Some st)
  | r :: rs =>
      let (x1, s) := mir_reg r x in
      match s with
      | None => (x1, [r], None)
      | Some s => let '(x2, l, o) := mirror_regs rs (if bad s then s else st) x1 in (x2, r :: l, o)
      end
  end.
Fixpoint mirror (b : blk) (x : X) : X * list nat * option stat :=
  let 'Blk _ r s := b in
  let '(x1, l1, o1) := mirror_regs r IsOk x in
  match o1 with
  | None => (x1, l1, None)
  | Some st =>
      let '(x2, l2, o2) :=
        (fix go (l : list blk) (st : stat) (x : X) : X * list nat * option stat :=
           match l with
           | [] => (x, [], Some st)
           | c :: l =>
               let '(x1, l1, o1) := mirror c x in
               match o1 with
               | None => (x1, l1, None)
               | Some s => let '(x2, l2, o2) := go l (if bad s then s else st) x1 in (x2, l1 ++ l2, o2)
               end
           end) s st x1 in
      (x2, l1 ++ l2, o2)
  end.
End Ops.

(** ** Construction and locking *)
(** Blocks are numbers below [count], by creation. *)
Record bst := BSt { count : nat; locked : nat -> bool; kids : nat -> list nat; bregs : nat -> list nat; rlocked : nat -> bool }.
Definition binit : bst := BSt 0 (fun _ => false) (fun _ => []) (fun _ => []) (fun _ => false).
Definition memb (n : nat) (l : list nat) : bool := existsb (Nat.eqb n) l.
Definition add_block (s : bst) (p c : nat) : bst * bool :=                (* 219-232 *)
  if locked s p then (s, false)
  else if memb c (kids s p) then (s, false)
  else (BSt (count s) (locked s) (upd (kids s) p (kids s p ++ [c])) (bregs s) (rlocked s), true).
Definition add_reg (s : bst) (p r : nat) : bst * bool :=                  (* 251-263 *)
  if locked s p then (s, false)
  else if memb r (bregs s p) then (s, false)
  else (BSt (count s) (locked s) (kids s) (upd (bregs s) p (bregs s p ++ [r])) (rlocked s), true).
(** 309-320; uvm_reg.py 256-260. [None]: the fuel is used up. *)
Definition lock_regs (s : bst) (b : nat) : bst :=
  BSt (count s) (upd (locked s) b true) (kids s) (bregs s) (fun r => rlocked s r || memb r (bregs s b)).
Fixpoint lock_model (fuel : nat) (s : bst) (b : nat) : option bst :=
  match fuel with
  | O => None
  | S fuel =>
      if locked s b then Some s
      else (fix go (l : list nat) (s : bst) : option bst :=
              match l with [] => Some s | c :: l => match lock_model fuel s c with Some s => go l s | None => None end end)
             (kids s b) (lock_regs s b)
  end.
Inductive bcall := BNew | BAdd (p c : nat) | BReg (p r : nat) | BLock (b : nat).
(** A call refers to existing blocks. *)
Definition bstep (s : bst) (c : bcall) : bst * bool :=
  match c with
  | BNew => (BSt (S (count s)) (locked s) (kids s) (bregs s) (rlocked s), true)
  | BAdd p c => if (p <? count s) && (c <? count s) then add_block s p c else (s, false)
  | BReg p r => if p <? count s then add_reg s p r else (s, false)
  | BLock b => if b <? count s then match lock_model (S (count s)) s b with Some s => (s, true) | None => (s, false) end else (s, false)
  end.
Fixpoint brun (s : bst) (cs : list bcall) : bst := match cs with [] => s | c :: cs => brun (fst (bstep s c)) cs end.

(** ** HDL paths *)
(** A block and its ancestors, the block first. [own]: hdl_paths_pool, [root]: root_hdl_paths,
    both by kind. *)
Record level := Level { own : string -> option (list string); root : string -> option string; default : string }.
(** 1298-1301; a list with one level per block, the top last *)
Fixpoint default_kind (l : list level) : string :=
  match l with
  | [] => ""%string
  | [b] => default b
  | b :: up => if String.eqb (default b) "" then default_kind up else default b
  end.
Section Paths.
Context (sep : string).
Definition under (p q : string) : string := if String.eqb q "" then p else (p ++ sep ++ q)%string.
(** 1237-1267, for a kind other than "" *)
Fixpoint full_of (k : string) (l : list level) : list string :=
  match l with
  | [] => []
  | b :: up =>
      match root b k with
      | Some p => if String.eqb p "" then [] else [p]
      | None =>
          match own b k with
          | None => []
          | Some qs =>
              let ps := full_of k up in
              flat_map (fun q => match ps with [] => if String.eqb q "" then [] else [q] | _ => map (fun p => under p q) ps end) qs
          end
      end
  end.
Definition full_hdl_path (k : string) (l : list level) : list string :=
  full_of (if String.eqb k "" then default_kind l else k) l.
(** uvm_reg.py 2028-2066. A concatenation is a list of slices. [None]: the AttributeError for a
    register in a register file, which has neither get_default_hdl_path() nor
    get_full_hdl_path(). *)
Record slice := Slice { s_path : string; s_off : Z; s_size : Z }.
Definition slice_under (p : string) (s : slice) : slice :=
  if String.eqb (s_path s) "" then Slice p (-1) (-1) else Slice (p ++ sep ++ s_path s)%string (s_off s) (s_size s).
Definition reg_full_hdl_path (in_file : bool) (rown : string -> option (list (list slice))) (k : string) (l : list level)
  : option (list (list slice)) :=
  if in_file && String.eqb k "" then None
  else
    let k := if String.eqb k "" then default_kind l else k in
    match rown k with
    | None => Some []
    | Some cs => if in_file then None
                 else Some (flat_map (fun c => map (fun p => map (slice_under p) c) (full_hdl_path k l)) cs)
    end.
End Paths.
