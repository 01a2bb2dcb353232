(** Model of automatic configuration: a component's declared fields are given the values
    of the visible resources of their names when it is built.
    src/uvm/base/uvm_component.py 1154-1253 (apply_config_settings),
    src/uvm/base/uvm_resource.py 1261-1291 (sort_by_precedence), 1432-1466 (lookup_scope),
    src/uvm/base/uvm_object.py 899-1030 (set_int_local, set_string_local, set_object_local),
    src/uvm/macros/uvm_object_defines.py 129-145, 199-268, 312-314,
    src/uvm/base/uvm_misc.py 226-341 (UVMStatusContainer). *)
From Coq Require Import List Bool Arith ZArith Ascii String.
From Verif Require Import Prelude SvModel.
Import ListNotations.
Local Open Scope nat_scope.

(** ** The visible resources *)
Section Visible.
Context {R : Type} (sees : R -> bool) (prec : R -> Z).

(** lookup_scope, 1454-1466: [tab] lists the names with their queues in the order in which
    the names were first used, the order of the keys of rtab (uvm_pool.py 119-125, 152-162);
    [ptr] is the position in rtab. *)
Fixpoint scope_loop (tab : list (list R)) (ptr : nat) (q : list R) : list R :=
  let q := q ++ filter sees (nth ptr tab []) in
  match ptr with
  | O => q
  | S p => scope_loop tab p q
  end.
Definition lookup_scope (tab : list (list R)) : list R :=
  match List.length tab with
  | O => []
  | S p => scope_loop tab p []
  end.

(** sort_by_precedence, 1280-1284: the dictionary _all, in order of insertion *)
Fixpoint group (all : list (Z * list R)) (r : R) : list (Z * list R) :=
  match all with
  | [] => [(prec r, [r])]
  | (k, q) :: t => if (k =? prec r)%Z then (k, r :: q) :: t else (k, q) :: group t r
  end.
(** 1285-1291: insert(0, ...) *)
Definition sort_by_precedence (q : list R) : list R :=
  fold_left (fun qq kq => fold_left (fun qq r => r :: qq) (snd kq) qq)
            (fold_left group q []) [].
End Visible.

(** ** Objects with declared fields *)
(** [VType] is a type proxy (UVMObjectWrapper, uvm_factory.py 997), [VOther] any value that
    is neither None, int, str, object nor type proxy. *)
Inductive value := VNone | VInt (z : Z) | VText (s : str) | VObj (o : nat) | VType (n : nat) | VOther (n : nat).
(** Declared fields, with whether the mask has UVM_READONLY. The field lists of the classes
    of the hierarchy are walked base first (131-134); they are put together here. *)
Record object := Object { decls : list (str * bool); attr : str -> option value }.
Definition heap := nat -> object.

Definition str_eqb (a b : str) : bool := if list_eq_dec ascii_dec a b then true else false.
Definition setattr (h : heap) (o : nat) (f : str) (v : value) : heap :=
  upd h o (Object (decls (h o)) (fun g => if str_eqb g f then Some v else attr (h o) g)).

(** uvm_globals.py 240-250; patterns outside the fragment of SvModel.v are not considered
    and match nothing here *)
Definition matches (expr s : str) : bool :=
  match uvm_is_match expr s with Some b => b | None => false end.

(** The scope stack (see ScopeModel.v) is taken to be empty at the start; [pre] is what its
    get returns before set_arg. *)
Definition dotted (pre : str) (f : str) : str :=
  match pre with [] => f | _ => pre ++ "."%char :: f end.

(** uvm_object.py 899-941 with uvm_object_defines.py 199-232: an int or a string. The cycle
    check has an empty list of scopes. Warnings about read-only fields are left out. *)
Definition set_field (c : nat) (name : str) (v : value) (h : heap) (d : str * bool) : heap :=
  if matches name (fst d) then if snd d then h else setattr h c (fst d) v else h.
Definition set_local (h : heap) (c : nat) (name : str) (v : value) : heap :=
  fold_left (set_field c name v) (decls (h c)) h.

Inductive res (A : Type) := Ok (a : A) | Exn | OutOfFuel.
Arguments Ok {A}. Arguments Exn {A}. Arguments OutOfFuel {A}.
Fixpoint fold_res {S F} (step : S -> F -> res S) (fs : list F) (s : S) : res S :=
  match fs with
  | [] => Ok s
  | f :: r => match step s f with Ok s1 => fold_res step r s1 | e => e end
  end.

(** 253-259: does the name have a "." or a "*"? *)
Definition wide (name : str) : bool :=
  existsb (fun c => Ascii.eqb c "." || Ascii.eqb c "*")%char name.

(** 233-262 for one field; [rec] walks the object in the field. An attribute that was never
    set, or a value without fields to walk, raises. *)
Definition set_obj_field (rec : heap -> nat -> str -> res heap) (self : nat) (pre name : str) (v : value)
    (h : heap) (d : str * bool) : res heap :=
  match attr (h self) (fst d) with
  | None => Exn
  | Some arg =>
      if matches name (dotted pre (fst d)) then
        if snd d then Ok h else Ok (setattr h self (fst d) v)
      else
        match arg with
        | VNone => Ok h
        | _ =>
            if snd d then Ok h
            else if wide name then
              match arg with
              | VObj o => rec h o (dotted pre (fst d))
              | _ => Exn
              end
            else Ok h
        end
  end.
(** 142-146 with uvm_misc.py 319-341: [scopes] are the objects being walked *)
Fixpoint set_obj (fuel : nat) (scopes : list nat) (name : str) (v : value) (h : heap) (self : nat) (pre : str) : res heap :=
  match fuel with
  | O => OutOfFuel
  | S fuel' =>
      if existsb (Nat.eqb self) scopes then Ok h
      else fold_res (set_obj_field (set_obj fuel' (self :: scopes) name v) self pre name v) (decls (h self)) h
  end.
(** uvm_object.py 944-1030 with clone false *)
Definition set_object_local (fuel : nat) (h : heap) (c : nat) (name : str) (v : value) : res heap :=
  set_obj fuel [] name v h c [].

(** ** apply_config_settings *)
Record rsrc := Rsrc { rname : str; rprec : Z; rval : value }.

Definition is_sep (c : ascii) : bool := (Ascii.eqb c "[" || Ascii.eqb c ".")%char.
(** 1223-1228: [to_sep] is the loop on the characters from position j on *)
Fixpoint to_sep (s : str) : nat :=
  match s with
  | [] => 0
  | c :: s => if is_sep c then 0 else S (to_sep s)
  end.
Definition advance (j : nat) (name : str) : nat := j + to_sep (skipn j name).
(** 1231-1235 *)
Definition search_name (j : nat) (name : str) : str :=
  if j <? List.length name then firstn j name else name.

Definition recording_detail : str := list_ascii_of_string "recording_detail".
(** 1219-1252 for one resource; j, which is never set back, is part of the state *)
Definition apply_one (fuel : nat) (c : nat) (fields : list str) (st : heap * nat) (r : rsrc) : res (heap * nat) :=
  let j := advance (snd st) (rname r) in
  let sn := search_name j (rname r) in
  if negb (existsb (str_eqb sn) fields) && negb (str_eqb sn recording_detail) then Ok (fst st, j)
  else
    match rval r with
    | VInt _ | VText _ => Ok (set_local (fst st) c (rname r) (rval r), j)
    | VObj _ => match set_object_local fuel (fst st) c (rname r) (rval r) with
                | Ok h => Ok (h, j) | Exn => Exn | OutOfFuel => OutOfFuel
                end
    | VType _ => Exn            (* val.obj *)
    | _ => Ok (fst st, j)
    end.
(** 264-268: all declared attributes are read *)
Definition has_fields (h : heap) (c : nat) : bool :=
  forallb (fun d => match attr (h c) (fst d) with Some _ => true | None => false end) (decls (h c)).
(** 1196-1253; [visible] is the list lookup_scope returns. field_array is taken to be empty at
    the start; it is empty again at the end. *)
Definition apply_config_settings (fuel : nat) (h : heap) (c : nat) (visible : list rsrc) : res heap :=
  if has_fields h c then
    match decls (h c) with
    | [] => Ok h
    | _ =>
        match fold_res (apply_one fuel c (map fst (decls (h c)))) (sort_by_precedence rprec visible) (h, 0) with
        | Ok (h', _) => Ok h'
        | Exn => Exn
        | OutOfFuel => OutOfFuel
        end
    end
  else Exn.
