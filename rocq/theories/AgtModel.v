(** Model of the activity of an agent: src/uvm/comps/uvm_agent.py. *)
From Coq Require Import List Bool Arith ZArith.
From Verif Require Import Prelude ResourceModel AutoModel.
Import ListNotations.
Local Open Scope Z_scope.

Section Agent.
(** [smatch] as in ResourceModel.v; [field] is the number of the name "is_active". Names are
    not empty, so that uvm_resource.py 1196-1205 only serves unused names, whose list is empty. *)
Context (smatch : nat -> nat -> bool) (field : nat).

(** The value of is_active: whatever the resource holds, None for one never written. *)
Definition activity : Type := option Z.
(** uvm_object_globals.py 129-130 *)
Definition uvm_active : activity := Some 1.
Definition uvm_passive : activity := Some 0.

(** uvm_agent.py 59-60 *)
Definition new_agent : activity := uvm_active.

(** build_phase, uvm_agent.py 63-78, after UVMComponent.build_phase (68), whose
    apply_config_settings, in AutoModel.v, leaves fields alone that are not declared;
    [path] is the full name. Every resource found is read in turn. *)
Definition build_phase (s : pool) (path : nat) (act : activity) : activity :=
  let rq := lookup_name smatch s path field in
  let rq := sort_by_precedence (fun id => r_prec (ResourceModel.heap s id)) rq in
  fold_left (fun _ rsrc => read s rsrc) rq act.
(** 85-93 *)
Definition get_is_active (act : activity) : activity := act.
End Agent.
