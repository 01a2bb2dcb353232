(** The names on the way from the root block to an object. *)
From Coq Require Import String Ascii List.
From Verif Require Import NamModel.
Import ListNotations.
Open Scope string_scope.

Inductive block_path : block -> list string -> Prop :=
| bp_root n : block_path (Block n None) [n]
| bp_in n b p : block_path b p -> block_path (Block n (Some b)) (p ++ [n])%list.
Inductive opt_path : option block -> list string -> Prop :=
| op_none : opt_path None []
| op_some b p : block_path b p -> opt_path (Some b) p.
(** In a register file the file counts; the block of what is in it does not. *)
Inductive file_path : rfile -> list string -> Prop :=
| fp_block n b p : opt_path b p -> file_path (RFile n None b) (p ++ [n])%list
| fp_file n f b p : file_path f p -> file_path (RFile n (Some f) b) (p ++ [n])%list.
Inductive reg_path : reg -> list string -> Prop :=
| rp_block n b p : opt_path b p -> reg_path (Reg n None b) (p ++ [n])%list
| rp_file n f b p : file_path f p -> reg_path (Reg n (Some f) b) (p ++ [n])%list.
Inductive path : item -> list string -> Prop :=
| p_block b p : block_path b p -> path (IBlock b) p
| p_file f p : file_path f p -> path (IFile f) p
| p_reg r p : reg_path r p -> path (IReg r) p
| p_field n r p : reg_path r p -> path (IField n r) (p ++ [n])%list
| p_mem n b p : opt_path b p -> path (IMem n b) (p ++ [n])%list
| p_map n b p : opt_path b p -> path (IMap n b) (p ++ [n])%list.

Fixpoint no_dot (s : string) : Prop :=
  match s with EmptyString => True | String c s => c <> "."%char /\ no_dot s end.
