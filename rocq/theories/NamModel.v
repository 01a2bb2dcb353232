(** Model of the full names in a register model.

    - reg/uvm_reg_block.py: get_full_name 379-383;
    - reg/uvm_reg_file.py: get_full_name 113-147;
    - reg/uvm_reg.py: get_full_name 272-287;
    - reg/uvm_reg_field.py: get_full_name 184-194;
    - reg/uvm_mem.py: get_full_name 241-245;
    - reg/uvm_reg_map.py: get_full_name 758-773.

    The objects are given with what is above them, which configure() sets. A field always has a
    register (without one the code raises). *)
From Coq Require Import String.
Open Scope string_scope.

Inductive block := Block (bname : string) (above : option block).
(** m_rf and parent *)
Inductive rfile := RFile (fname : string) (outer : option rfile) (blk : option block).
(** m_regfile_parent and m_parent *)
Inductive reg := Reg (rname : string) (file : option rfile) (blk : option block).
Inductive item := IBlock (b : block) | IFile (f : rfile) | IReg (r : reg) | IField (name : string) (r : reg)
| IMem (name : string) (blk : option block) | IMap (name : string) (blk : option block).

(** uvm_reg_block.py 379-383 *)
Fixpoint block_name (b : block) : string :=
  match b with
  | Block n None => n
  | Block n (Some p) => block_name p ++ "." ++ n
  end.
Definition in_block (b : option block) (n : string) : string :=
  match b with None => n | Some b => block_name b ++ "." ++ n end.
(** uvm_reg_file.py 136-147 *)
Fixpoint file_name (f : rfile) : string :=
  match f with
  | RFile n (Some o) _ => file_name o ++ "." ++ n
  | RFile n None b => in_block b n
  end.
(** uvm_reg.py 282-287 *)
Definition reg_name (r : reg) : string :=
  match r with
  | Reg n (Some f) _ => file_name f ++ "." ++ n
  | Reg n None b => in_block b n
  end.
Definition full_name (x : item) : string :=
  match x with
  | IBlock b => block_name b
  | IFile f => file_name f
  | IReg r => reg_name r
  | IField n r => reg_name r ++ "." ++ n
  | IMem n b | IMap n b => in_block b n
  end.
