(** Model of the settings that components get from their place in the hierarchy,
    src/uvm/base/uvm_component.py: the end of the constructor (264-281), set_domain 970-992,
    set_phase_imp 1049-1066, set_report_*_hier 1601-1713, m_do_pre_abort 1736-1739; uvm_root.py
    die() 354-356; and which implementation of a phase is executed by which component
    (uvm_topdown_phase.py 84-95, uvm_bottomup_phase.py 84-93, uvm_task_phase.py 139-158).

    Components are numbered in the order of construction, 0 is uvm_top; names are in TreeModel,
    the walks over the components in TravModel, the report handler in ReportModel. The
    constructor's settings from the command line (281; CmdModel) are an argument of it. What
    set_domain does to the phases of the domain (989, 1002-1046) is in DomModel. Message id 0
    is the empty string. *)
From Coq Require Import List Bool Arith ZArith.
From Verif Require Import Prelude ReportModel.
Import ListNotations.
Local Open Scope nat_scope.

Record hs := HS {
  size : nat;                       (* components so far *)
  kids : nat -> list nat;           (* m_children *)
  hand : nat -> handler;            (* m_rh *)
  dom : nat -> nat;                 (* m_domain *)
  imps : nat -> nat -> option nat   (* m_phase_imps *)
}.
Definition set_hand (c : nat) (op : hop) (s : hs) : hs := HS (size s) (kids s) (upd (hand s) c (hset (hand s c) op)) (dom s) (imps s).
Definition set_dom (d c : nat) (s : hs) : hs := HS (size s) (kids s) (hand s) (upd (dom s) c d) (imps s).
Definition set_imp (ph i c : nat) (s : hs) : hs := HS (size s) (kids s) (hand s) (dom s) (upd (imps s) c (upd (imps s c) ph (Some i))).

(** 160-281; the number of the new component is [size s]. [cl]: what the command line says of
    it. 280: get_report_verbosity_level() is called with its defaults UVM_INFO and "". *)
Definition create (s : hs) (p : nat) (cl : list hop) : hs :=
  let c := size s in
  let level := get_verbosity_level (hand s p) INFO 0 in
  HS (S c) (upd (upd (kids s) c []) p (kids s p ++ [c]))
    (upd (hand s) c (fold_left hset cl (hset handler0 (HVerb level))))
    (upd (dom s) c (dom s p)) (upd (imps s) c (fun _ => None)).

(** "do it here, then for each child in turn"; None: the recursion does not end. *)
Fixpoint down (fuel : nat) (f : nat -> hs -> hs) (s : hs) (c : nat) : option hs :=
  match fuel with
  | O => None
  | S k =>
      let s := f c s in
      fold_left (fun o ch => match o with Some s => down k f s ch | None => None end) (kids s c) (Some s)
  end.
(** 1736-1739: the calls of pre_abort, in order *)
Fixpoint abort (fuel : nat) (s : hs) (c : nat) : option (list nat) :=
  match fuel with
  | O => None
  | S k =>
      option_map (fun l => l ++ [c])
        (fold_left (fun o ch => match o, abort k s ch with Some l, Some m => Some (l ++ m) | _, _ => None end) (kids s c) (Some []))
  end.

(** The argument hier: True, another true value (like 1), or a false one *)
Inductive flag := FTrue | FTruthy | FFalse.
(** Which setters have a version with _hier (the others raise AttributeError) *)
Definition has_hier (op : hop) : bool := match op with HSevOvr _ _ | HSidOvr _ _ _ | HReset => false | _ => true end.

Inductive label :=
| LNew (p : nat) (cl : list hop)                   (* constructor *)
| LReport (c : nat) (op : hop)                     (* set_report_... *)
| LReportHier (c : nat) (op : hop)                 (* set_report_..._hier *)
| LDomain (c d : nat) (hier : flag)                (* set_domain *)
| LImp (c ph i : nat) (hier : flag)                (* set_phase_imp *)
| LDie.                                            (* UVMRoot.die *)
Inductive out := OAttr | OAbort (c : nat) | OLoop.

Definition all_down (f : nat -> hs -> hs) (s : hs) (c : nat) : hs * list out :=
  match down (size s) f s c with Some s => (s, []) | None => (s, [OLoop]) end.
Definition step (s : hs) (l : label) : hs * list out :=
  match l with
  | LNew p cl => (create s p cl, [])
  | LReport c op => (set_hand c op s, [])
  | LReportHier c op => if has_hier op then all_down (fun c => set_hand c op) s c else (s, [OAttr])
  | LDomain c d FTrue => all_down (set_dom d) s c                          (* 990: "is True" *)
  | LDomain c d _ => (set_dom d c s, [])
  | LImp c ph i FFalse => (set_imp ph i c s, [])
  | LImp c ph i _ => all_down (set_imp ph i) s c
  | LDie => (s, match abort (size s) s 0 with Some l => map OAbort l | None => [OLoop] end)
  end.
(** uvm_top, in domain 0 (uvm_root.py 187) *)
Definition init (cl : list hop) : hs := HS 1 (fun _ => []) (fun _ => configure cl) (fun _ => 0) (fun _ _ => None).
Definition run (cl : list hop) (ls : list label) : hs * list out := run_machine step (init cl) ls.

(** What component [c] executes when a phase with implementation [ph] of domain [pd] is
    executed; [common]: the common domain. *)
Definition executes (s : hs) (common pd ph c : nat) : option nat :=
  if Nat.eqb pd common || Nat.eqb pd (dom s c) then Some (match imps s c ph with Some i => i | None => ph end) else None.
