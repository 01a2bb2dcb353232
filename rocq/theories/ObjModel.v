(** Model of object copy, clone and compare with field macros:
    src/uvm/base/uvm_object.py 282-299, 511-539, 567-646, src/uvm/base/uvm_comparer.py
    and the copy/compare parts of src/uvm/macros/uvm_object_defines.py 121-177.

    Objects are numbers in a heap; attributes and classes are numbers. [VOther] stands
    for a value that is neither int, str, None nor a uvm object (a list, a float):
    equal to itself only, copied by reference. User hooks: do_copy does nothing,
    do_compare is any function of the two objects without side effects. Constructors
    give attributes that are not uvm objects. Printing is not modelled. *)
From Coq Require Import ZArith List Bool Arith.
From Verif Require Import Prelude.
Import ListNotations.
Local Open Scope nat_scope.

Inductive val := VNone | VInt (z : Z) | VStr (s : nat) | VOther (n : nat) | VObj (o : nat).
Definition attrs := nat -> option val.
Record heap := Heap { next : nat; obj : nat -> option (nat * attrs) (* class, attributes *) }.

Inductive res (A : Type) := Ok (a : A) | Exn | OutOfFuel.
Arguments Ok {A}. Arguments Exn {A}. Arguments OutOfFuel {A}.

(** Field flags, uvm_object_globals.py 161-177. *)
Definition copyable (mask : Z) : bool := negb (Z.testbit mask 1) && Z.testbit mask 0.
Definition comparable (mask : Z) : bool := negb (Z.testbit mask 3) && Z.testbit mask 2.
Definition UVM_DEFAULT : Z := 1365.     (* 0b10101010101 *)

Definition getattr (h : heap) (o f : nat) : option val :=
  match obj h o with Some (_, fl) => fl f | None => None end.
Definition setattr (h : heap) (o f : nat) (v : val) : heap :=
  match obj h o with
  | Some (c, fl) => Heap (next h) (upd (obj h) o (Some (c, upd fl f (Some v))))
  | None => h
  end.

Section Objects.
(** The field lists walked for an instance of a class: one pass per class of its
    hierarchy with field macros. *)
Variable passes : nat -> list (list (nat * Z)).
(** The class its create method makes, and what the constructor sets. *)
Variable created : nat -> nat.
Variable init : nat -> attrs.

Definition create (h : heap) (o : nat) : heap * nat :=
  let c := match obj h o with Some (c, _) => created c | None => 0 end in
  (Heap (S (next h)) (upd (obj h) (next h) (Some (c, init c))), next h).

(** ** Copy *)
(** uvm_global_copy_map (its keys) and UVMObject.depth are class attributes. *)
Record cst := Cst { hp : heap; gmap : list nat; depth : Z }.

(** uvm_object_defines.py 148-156: the UVM_COPY branch for one field; clone (282-299) of an
    object field. *)
Definition copy_field (rec : cst -> nat -> nat -> res cst) (self rhs : nat) (st : cst) (f : nat * Z) : res cst :=
  if copyable (snd f) then
    match getattr (hp st) rhs (fst f) with
    | None => Exn
    | Some (VObj o) =>
        let '(h1, tmp) := create (hp st) o in
        match rec (Cst h1 (gmap st) (depth st)) tmp o with
        | Ok st1 => Ok (Cst (setattr (hp st1) self (fst f) (VObj tmp)) (gmap st1) (depth st1))
        | e => e
        end
    | Some v => Ok (Cst (setattr (hp st) self (fst f) v) (gmap st) (depth st))
    end
  else Ok st.
Fixpoint foldr_res {S F} (step : S -> F -> res S) (fs : list F) (st : S) : res S :=
  match fs with
  | [] => Ok st
  | f :: r => match step st f with Ok st1 => foldr_res step r st1 | e => e end
  end.

Definition class_of (h : heap) (o : nat) : nat := match obj h o with Some (c, _) => c | None => 0 end.

(** 511-539, rhs not None. 523 sets the depth to 0 in nested calls too. *)
Fixpoint copy (fuel : nat) (st : cst) (self rhs : nat) : res cst :=
  match fuel with
  | O => OutOfFuel
  | S fuel' =>
      if existsb (Nat.eqb rhs) (gmap st) then Ok (Cst (hp st) (gmap st) 0)
      else
        match foldr_res (copy_field (copy fuel') self rhs) (concat (passes (class_of (hp st) self)))
                (Cst (hp st) (rhs :: gmap st) 1) with
        | Ok st1 =>
            let d := (depth st1 - 1)%Z in
            Ok (Cst (hp st1) (if (d =? 0)%Z then [] else gmap st1) d)
        | e => e
        end
  end.

(** 282-299 *)
Definition clone (fuel : nat) (st : cst) (o : nat) : res (cst * nat) :=
  let '(h1, tmp) := create (hp st) o in
  match copy fuel (Cst h1 (gmap st) (depth st)) tmp o with
  | Ok st1 => Ok (st1, tmp)
  | Exn => Exn
  | OutOfFuel => OutOfFuel
  end.

(** ** Compare *)
(** The comparer's knobs. *)
Variable reference : bool.     (* policy is UVM_REFERENCE *)
Variable check_type : bool.
Variable show_max : Z.
Variable do_compare : nat -> nat -> bool.

(** comparer.result, compare_map (rhs object to lhs object) and the depth of the
    scope stack shared by all compares. *)
Record mst := Mst { result : Z; cmap : list (nat * nat); sdepth : nat }.
Definition miss (st : mst) : mst := Mst (result st + 1) (cmap st) (sdepth st).
Fixpoint lookup (r : nat) (m : list (nat * nat)) : option nat :=
  match m with [] => None | (k, v) :: m' => if Nat.eqb k r then Some v else lookup r m' end.

Definition val_eqb (a b : val) : bool :=
  match a, b with
  | VNone, VNone => true
  | VInt x, VInt y => (x =? y)%Z
  | VStr x, VStr y => Nat.eqb x y
  | VOther x, VOther y => Nat.eqb x y
  | VObj x, VObj y => Nat.eqb x y
  | _, _ => false
  end.

(** uvm_comparer.py 217-280 for ints: true is 1. *)
Definition compare_field_int (lhs rhs size : Z) : bool :=
  let mask := Z.shiftr (-1) (64 - size) in
  (Z.land lhs mask =? Z.land rhs mask)%Z.
(** 140-173: None, as of no return statement, for sizes over 64. *)
Definition compare_field (lhs rhs size : Z) : option bool :=
  if (size <=? 64)%Z then Some (compare_field_int lhs rhs size) else None.

(** uvm_object_defines.py 157-173: the UVM_COMPARE branch for one field whose values differ; the scope is balanced
    around nested compares. compare_string is called with an argument too many. *)
Definition compare_one (h : heap) (rec : mst -> nat -> nat -> res (mst * bool)) (st : mst) (vl vr : val) : res mst :=
  match vl with
  | VInt x =>
      match vr with
      | VInt z => match compare_field x z 0 with Some false => Ok (miss st) | _ => Ok st end
      | _ => Exn
      end
  | VStr _ => Exn
  | VObj l =>
      (* uvm_comparer.py 303-339 *)
      if reference then Ok (miss st)
      else match vr with
      | VNone => Ok (miss st)
      | VObj r =>
          match rec (Mst (result st) (cmap st) (S (sdepth st))) l r with
          | Ok (st1, _) => Ok (Mst (result st1) (cmap st1) (sdepth st1 - 1))
          | Exn => Exn
          | OutOfFuel => OutOfFuel
          end
      | _ => Exn
      end
  | _ => Ok st
  end.
(** One pass, 157-177, with its early return. *)
Fixpoint compare_pass (h : heap) (rec : mst -> nat -> nat -> res (mst * bool)) (l r : nat)
    (fs : list (nat * Z)) (st : mst) : res mst :=
  match fs with
  | [] => Ok st
  | f :: fs' =>
      if comparable (snd f) then
        match getattr h r (fst f), getattr h l (fst f) with
        | Some vr, Some vl =>
            if val_eqb vr vl then compare_pass h rec l r fs' st
            else match compare_one h rec st vl vr with
            | Ok st1 =>
                if negb (result st1 =? 0)%Z && (show_max <=? result st1)%Z then Ok st1
                else compare_pass h rec l r fs' st1
            | e => e
            end
        | _, _ => Exn
        end
      else compare_pass h rec l r fs' st
  end.

(** uvm_object.py 567-646, rhs not None. *)
Fixpoint compare (fuel : nat) (h : heap) (st : mst) (l r : nat) : res (mst * bool) :=
  match fuel with
  | O => OutOfFuel
  | S fuel' =>
      let st := if Nat.eqb (sdepth st) 0 then Mst 0 [] 1 else st in
      let fin (p : mst * bool) :=
        let '(st, dc) := p in
        Ok (Mst (result st) (cmap st) (if Nat.eqb (sdepth st) 1 then 0 else sdepth st),
            (result st =? 0)%Z && dc) in
      match lookup r (cmap st) with
      | Some l' => fin ((if Nat.eqb l' l then st else miss st), false)
      | None =>
          let st := if check_type && negb (Nat.eqb (class_of h l) (class_of h r)) then miss st else st in
          let st := Mst (result st) ((r, l) :: cmap st) (sdepth st) in
          match foldr_res (fun st fs => compare_pass h (compare fuel' h) l r fs st) (passes (class_of h l)) st with
          | Ok st1 => fin (st1, do_compare l r)
          | Exn => Exn
          | OutOfFuel => OutOfFuel
          end
      end
  end.
End Objects.

(** ** Which fields a class has *)
(** uvm_object_defines.py 121-126 and 322-330: utils_begin gives the class new field
    tables only if none are inherited; a declared field goes into the tables found on
    the class. Single inheritance. *)
Record cls := Cls { base : option nat; macros : bool (* utils_begin was called *) }.
Record reg := Reg { classes : nat -> option cls; table : nat -> option (list (nat * Z)) }.
Definition reg0 := Reg (fun _ => None) (fun _ => None).

(** The class on which the tables are found, along the base classes. *)
Fixpoint owner (fuel : nat) (y : reg) (c : nat) : option nat :=
  match fuel with
  | O => None
  | S fuel' =>
      match table y c with
      | Some _ => Some c
      | None => match classes y c with
                | Some (Cls (Some b) _) => owner fuel' y b
                | _ => None
                end
      end
  end.
Inductive decl :=
| DClass (c : nat) (b : option nat)           (* class statement *)
| DBegin (c : nat)                            (* uvm_object_utils_begin *)
| DField (c : nat) (f : nat) (mask : Z).      (* uvm_field_* between begin and end *)
Definition declare (n : nat) (y : reg) (d : decl) : reg :=
  match d with
  | DClass c b => Reg (upd (classes y) c (Some (Cls b false))) (table y)
  | DBegin c =>
      match classes y c with
      | Some (Cls b _) =>
          Reg (upd (classes y) c (Some (Cls b true)))
              (match owner n y c with None => upd (table y) c (Some []) | Some _ => table y end)
      | None => y
      end
  | DField c f m =>
      match owner n y c with
      | Some o =>
          match table y o with
          | Some l => Reg (classes y) (upd (table y) o (Some (l ++ [(f, m)])))
          | None => y
          end
      | None => y
      end
  end.
(** 128-135: the passes over the fields for an instance of class c: those of the base
    class, then, if the class has macros, one over the table found on it. *)
Fixpoint passes_of (fuel : nat) (n : nat) (y : reg) (c : nat) : list (list (nat * Z)) :=
  match fuel with
  | O => []
  | S fuel' =>
      match classes y c with
      | None => []
      | Some (Cls b m) =>
          (match b with Some b' => passes_of fuel' n y b' | None => [] end)
          ++ (if m then match owner n y c with
                        | Some o => match table y o with Some l => [l] | None => [] end
                        | None => []
                        end
              else [])
      end
  end.
