(** Model of the proxies in src/uvm/base/uvm_registry.py 46-371 with the factory handling of
    src/uvm/base/uvm_coreservice.py 41-92 on top of the factory of FactoryModel.v. *)
From Coq Require Import List Bool Arith Ascii.
From Verif Require Import Prelude FactoryModel SvModel.
Import ListNotations.
Local Open Scope nat_scope.

Inductive rkind := Comp | Obj.
Definition kind_eqb (a b : rkind) : bool := match a, b with Comp, Comp | Obj, Obj => true | _, _ => false end.

(** Factories: the one the [k]-th core service makes for itself, and those made by the user *)
Inductive fid := Own (k : nat) | User (i : nat).
Definition fid_eqb (a b : fid) : bool :=
  match a, b with Own i, Own j | User i, User j => Nat.eqb i j | _, _ => false end.

Section Registry.
(** Proxies are numbered in the order their construction is tried. Proxy [w] is for class
    [wclass w] under the name [wname w]; [proper]: neither "" nor "<unknown>"; [plain_class w]:
    type(Constr) is type, so that its constructor does not raise (70-71). *)
Context (wkind : nat -> rkind) (wname : nat -> nat) (wclass : nat -> nat) (plain_class : nat -> bool) (proper : nat -> bool).
Definition tname (w : nat) : option nat := if proper (wname w) then Some (wname w) else None.

(** Instance paths are strings; the factory of FactoryModel.v numbers them. *)
Context (num : str -> nat) (txt : nat -> str).
Definition pmatch (i j : nat) : bool := match uvm_is_match (txt i) (txt j) with Some b => b | None => false end.
Definition nmatch : nat -> nat -> bool := Nat.eqb.     (* type names without special characters *)

Record rst := Rst {
  table : rkind -> nat -> option nat;      (* UVMComponentRegistry.comps, UVMObjectRegistry.objs *)
  flag : rkind -> nat -> option bool;      (* registered *)
  facs : fid -> factory;
  cur : fid;                               (* what get_factory() gives *)
  service : nat;                           (* which core service *)
  count : nat                              (* proxies so far *)
}.
Definition rst0 : rst := Rst (fun _ _ => None) (fun _ _ => None) (fun _ => factory0) (Own 0) 0 0.

Definition updk {A} (f : rkind -> nat -> A) (k : rkind) (n : nat) (v : A) : rkind -> nat -> A :=
  fun k' n' => if kind_eqb k' k && Nat.eqb n' n then v else f k' n'.
Definition updf (f : fid -> factory) (i : fid) (v : factory) : fid -> factory := fun j => if fid_eqb j i then v else f j.
Definition on_factory (s : rst) (g : factory -> factory) : rst :=
  Rst (table s) (flag s) (updf (facs s) (cur s) (g (facs s (cur s)))) (cur s) (service s) (count s).

Inductive outcome := Made (c : nat) | KeyErr | TypeErr | Null | Fatal | IndexErr | Done | Unknown.

(** get, 118-130 and 274-286 *)
Definition get (s : rst) (w : nat) : option rst :=
  match flag s (wkind w) (wname w) with
  | None => None
  | Some true => Some s
  | Some false =>
      let s1 := on_factory s (fun f => register tname f w) in
      Some (Rst (table s1) (updk (flag s1) (wkind w) (wname w) (Some true)) (facs s1) (cur s1) (service s1) (count s1))
  end.
(** __init__, 69-81 and 227-241 *)
Definition construct (s : rst) : rst * outcome :=
  let w := count s in
  let s := Rst (table s) (flag s) (facs s) (cur s) (service s) (S w) in
  if negb (plain_class w) then (s, TypeErr)
  else
    let s1 := Rst (updk (table s) (wkind w) (wname w) (Some (wclass w))) (updk (flag s) (wkind w) (wname w) (Some false))
                  (facs s) (cur s) (service s) (count s) in
    match get s1 w with Some s2 => (s2, Done) | None => (s1, KeyErr) end.

(** create_component of a component proxy, create_object of an object proxy (90-103, 250-262); the
    other one is that of UVMObjectWrapper, which returns None (uvm_factory.py 1007-1034). *)
Definition instantiate (s : rst) (k : rkind) (w : nat) : outcome :=
  if kind_eqb (wkind w) k then match table s k (wname w) with Some c => Made c | None => KeyErr end else Null.
Definition outcome_of (s : rst) (k : rkind) (f : fres) : outcome :=
  match f with
  | FType w => instantiate s k w
  | FNone => Null
  | FIndexError => IndexErr
  | FOut => Unknown
  end.

(** uvm_factory.py 516-524 *)
Definition join (p n : str) : str :=
  match p, n with [], _ => n | _, [] => p | _, _ => p ++ "."%char :: n end.
Definition path_no (p : str) : option nat := match p with [] => None | _ => Some (num p) end.
(** 148-153, 305-310 *)
Definition context_of (contxt : str) (parent : option str) : str :=
  match contxt, parent with [], Some p => p | _, _ => contxt end.
(** create, 132-180 and 288-323; [pristine] as in FactoryModel.v. The parent is given by its full name. *)
Definition create (fuel : nat) (pristine : bool) (s : rst) (w : nat) (name contxt : str) (parent : option str) : rst * outcome :=
  match get s w with
  | None => (s, KeyErr)
  | Some s =>
      let r := create_by_type tname pmatch fuel pristine (facs s (cur s)) w (path_no (join (context_of contxt parent) name)) in
      (s, match outcome_of s (wkind w) r with Null => match wkind w with Comp => Fatal | Obj => Null end | o => o end)
  end.
(** set_type_override, 182-196 and 325-339 *)
Definition set_type (s : rst) (w w' : nat) (replace : bool) : rst * outcome :=
  match get s w with
  | None => (s, KeyErr)
  | Some s => (on_factory s (fun f => set_type_by_type tname f w w' replace), Done)
  end.
(** set_inst_override, 198-228 and 341-371 *)
Definition under (parent : option str) (p : str) : str :=
  match parent with None => p | Some fn => match p with [] => fn | _ => fn ++ "."%char :: p end end.
Definition set_inst (s : rst) (w w' : nat) (p : str) (parent : option str) : rst * outcome :=
  match get s w with
  | None => (s, KeyErr)
  | Some s => (on_factory s (fun f => set_inst_by_type tname f w w' (num (under parent p))), Done)
  end.
(** uvm_factory.py 470-494, 526-553 on the current factory *)
Definition by_name (fuel : nat) (pristine : bool) (s : rst) (k : rkind) (n : nat) (path : str) : outcome :=
  outcome_of s k (create_by_name tname pmatch nmatch fuel pristine (facs s (cur s)) n (path_no path)).

Inductive rop :=
| New
| SetType (w w' : nat) (replace : bool)
| SetInst (w w' : nat) (p : str) (parent : option str)
| Create (w : nat) (name contxt : str) (parent : option str)
| SetFactory (f : fid)                  (* UVMCoreService.get().set_factory *)
| ResetCore.                            (* UVMCoreService.reset() *)
Definition rstep (s : rst) (o : rop) : rst :=
  match o with
  | New => fst (construct s)
  | SetType w w' r => fst (set_type s w w' r)
  | SetInst w w' p parent => fst (set_inst s w w' p parent)
  | Create w _ _ _ => match get s w with Some s => s | None => s end
  | SetFactory f => Rst (table s) (flag s) (facs s) f (service s) (count s)
  | ResetCore => Rst (fun _ _ => None) (fun _ _ => None) (facs s) (Own (S (service s))) (S (service s)) (count s)
  end.
Definition rrun (ops : list rop) : rst := fold_left rstep ops rst0.
End Registry.
