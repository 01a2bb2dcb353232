(** Model of clear() of src/uvm/base/uvm_objection.py, 710-766, with m_cleared (450-456, 640-656)
    and m_top_all_dropped (236, 454, 763, 958-959), on top of ObjectionModel.v. Left out: the
    trace, the recycling of context records (see ObjectionModel.v). *)
From Coq Require Import List Bool Arith ZArith.
From Verif Require Import Prelude ObjectionModel.
Import ListNotations.
Open Scope Z_scope.

Section Clr.
Context (parent : nat -> nat).
(** the objects of the hierarchy *)
Context (objs : list nat).

(** m_top_all_dropped is 0 (236, 454), 1 (959) or False (763); 723 asks for False by identity *)
Inductive tad := T0 | T1 | TFalse.
(** [broken]: an exception left a context in m_forked_list that was cleared (745-748): what
    happens after that is not modelled. *)
Record cobj := CO { ob : objn; cleared : bool; top_ad : tad; broken : bool }.
Definition cobj0 : cobj := CO objn0 false T0 false.

Inductive clab := LObj (l : label) | LClear.
Inductive exn := AttributeError | KeyError.
Inductive cout :=
| OObj (o : out)
| OWarn                           (* OBJTN_CLEAR, 725 *)
| OReleased                       (* those that wait for all_dropped of the top go on, 765-766 *)
| OExn (e : exn).

Definition is_none {A} (x : option A) : bool := match x with None => true | _ => false end.
Definition is_fatal (o : out) : bool := match o with OFatal _ => true | _ => false end.
Definition is_top_all_dropped (o : out) : bool := match o with OAllDropped O => true | _ => false end.

Definition clear (s : cobj) : cobj * list cout :=
  let o := ob s in
  let w := match top_ad s with TFalse => if tot o 0%nat >? 0 then [OWarn] else [] | _ => [] end in
  (* 727-742 *)
  let o := Objn (fun _ => 0) (fun _ => 0) [] (ev o) (flist o) (nfork o) (fctx o) (drain o) in
  match flist o with
  | _ :: _ => (CO o (cleared s) (top_ad s) true, w ++ [OExn AttributeError])         (* 748 *)
  | [] =>
      if forallb (fun x => is_none (fctx o x)) objs then
        (CO (set_fctx o (fun _ => None)) true TFalse false, w ++ [OReleased])         (* 763-766 *)
      else (CO o (cleared s) (top_ad s) false, w ++ [OExn KeyError])                  (* 753 *)
  end.

(** a step of the objection; while m_cleared is set a drop below zero is ignored (642, 652) *)
Definition lift (s : cobj) (l : label) : cobj * list cout :=
  let cl := match l with LRaise _ _ => false | _ => cleared s end in
  let ad := match l with LRaise _ _ => T0 | _ => top_ad s end in
  let '(o, outs) := ostep parent (ob s) l in
  let outs := if cl then filter (fun x => negb (is_fatal x)) outs else outs in
  (CO o cl (if existsb is_top_all_dropped outs then T1 else ad) false, map OObj outs).
Definition cstep (s : cobj) (l : clab) : cobj * list cout :=
  if broken s then (s, [])
  else match l with LObj l => lift s l | LClear => clear s end.
Definition crun (s : cobj) (ls : list clab) : cobj * list cout := run_machine cstep s ls.
End Clr.
