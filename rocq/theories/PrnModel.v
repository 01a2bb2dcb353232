(** Model of src/uvm/base/uvm_printer.py: the rows an object prints (131-312), with
    UVMObject.sprint() (uvm_object.py 345-357), and what the tree printer (776-861) and the table
    printer (653-745) make of them. The scope stack is ScopeModel.v.

    Left out: the row's type, size and value where they do not matter, the knobs show_root and
    reference, rows formatted by the user, empty names of arrays, strings and reals (the printer
    then takes the name of the row before), and printers whose m_string is set. *)
From Coq Require Import List Bool Arith.
From Verif Require Import Prelude ScopeModel.
Import ListNotations.
Local Open Scope nat_scope.

(** ** Rows of an object *)
(** What do_print() and the field macros of an object print, in order: fields (print_field,
    print_string, ..., 314-445), the row of dots (158-175), arrays with elements between
    print_array_header() and print_array_footer(), objects (None: a null handle), and objects
    printed by reference (print_object_header only). *)
Inductive item :=
| Field (name : str) | Dots | Arr (name : str) (elems : list item)
| Sub (name : str) (o : option nat) | Ref (name : str) (o : option nat).
(** Objects are numbers. A component has children; [o_enabled] is print_enabled. *)
Record obj := Obj { o_name : str; o_full : str; o_enabled : bool; o_kids : list nat; o_items : list item }.

Record row := Row { level : nat; rname : str }.
(** m_scope, the length of m_array_stack, m_rows, cycle_check *)
Record pst := PSt { sc : scope; arrs : nat; rows : list row; cyc : list nat }.
Definition pinit : pst := PSt scope0 0 [] [].
Definition dots : str := [46; 46; 46].
Definition unnamed : str := [60; 117; 110; 110; 97; 109; 101; 100; 62].
Definition depth (s : pst) : nat := length (m_stack (sc s)).
Definition text (a : option arg) : str := match a with Some (AStr s) => s | _ => [] end.

Section Print.
(** [adjust]: adjust_name (275-287) at a depth, depending on the knobs *)
Context (adjust : nat -> str -> str) (heap : nat -> obj) (limit : option nat).

Definition with_sc (s : pst) (y : scope) : pst := PSt y (arrs s) (rows s) (cyc s).
Definition add_row (s : pst) (name : str) : pst :=
  PSt (sc s) (arrs s) (rows s ++ [Row (depth s) (adjust (depth s) name)]) (cyc s).
(** 295-300, 336-338 *)
Definition print_field (s : pst) (name : str) : pst :=
  match name with
  | [] => add_row s []
  | _ => let s := with_sc s (set_arg (sc s) name) in add_row s (text (get (sc s)))
  end.
Definition print_dots (s : pst) : pst := add_row s dots.                       (* 295, 299-300 *)
Definition print_array_header (s : pst) (name : str) : pst :=                  (* 133-146 *)
  let s := with_sc s (set_arg (sc s) name) in
  let s := add_row s (text (get (sc s))) in
  PSt (down (sc s) name) (S (arrs s)) (rows s) (cyc s).
Definition print_array_footer (s : pst) : pst :=                               (* 152-155 *)
  match arrs s with O => s | S n => PSt (up (sc s) dot) n (rows s) (cyc s) end.
(** 188-197 *)
Definition header_name (s : pst) (name : str) (o : option nat) : str :=
  let name := match name, o with
              | [], Some o => if Nat.eqb (depth s) 0 then o_full (heap o) else o_name (heap o)
              | n, _ => n
              end in
  match name with [] => unnamed | _ => name end.
Definition print_object_header (s : pst) (name : str) (o : option nat) : pst := (* 186-219 *)
  let s := with_sc s (set_arg (sc s) (header_name s name o)) in
  add_row s (text (get (sc s))).
(** [po]: print_object *)
Section Items.
Context (po : str -> option nat -> pst -> option pst).
Fixpoint print_item (i : item) (s : pst) : option pst :=
  match i with
  | Field n => Some (print_field s n)
  | Dots => Some (print_dots s)
  | Arr n es =>
      match (fix go (l : list item) (s : pst) : option pst :=
               match l with [] => Some s | e :: l => match print_item e s with Some s => go l s | None => None end end)
              es (print_array_header s n) with
      | Some s => Some (print_array_footer s)
      | None => None
      end
  | Sub n o => po n o s
  | Ref n o => Some (print_object_header s n o)
  end.
Fixpoint print_items (l : list item) (s : pst) : option pst :=
  match l with [] => Some s | e :: l => match print_item e s with Some s => print_items l s | None => None end end.
(** 247-256 *)
Fixpoint print_kids (l : list nat) (s : pst) : option pst :=
  match l with
  | [] => Some s
  | c :: l => match (if o_enabled (heap c) then po [] (Some c) s else Some s) with Some s => print_kids l s | None => None end
  end.
End Items.
(** 230-265. [name] is cleared on the way (246), so the stack is always left by up("."). The
    object's sprint() prints its items because the printer is not at the top (uvm_object.py
    348-352). *)
Fixpoint print_object (fuel : nat) (name : str) (o : option nat) (s : pst) : option pst :=
  match fuel with
  | O => None
  | S fuel =>
      let s := print_object_header s name o in
      match o with
      | None => Some s
      | Some v =>
          if (match limit with None => true | Some d => depth s <? d end) && negb (existsb (Nat.eqb v) (cyc s)) then
            let s := PSt (down (sc s) (match name with [] => o_name (heap v) | _ => name end)) (arrs s) (rows s) (v :: cyc s) in
            match print_kids (print_object fuel) (o_kids (heap v)) s with
            | None => None
            | Some s =>
                match print_items (print_object fuel) (o_items (heap v)) s with
                | None => None
                | Some s => Some (PSt (up (sc s) dot) (arrs s) (rows s) (filter (fun c => negb (Nat.eqb c v)) (cyc s)))
                end
            end
          else Some s
      end
  end.
(** uvm_object.py 345-357, the rows that are given to emit(); emit() clears them *)
Definition sprint (fuel : nat) (o : nat) (s : pst) : option (pst * list row) :=
  match print_object fuel (o_name (heap o)) (Some o) s with
  | None => None
  | Some s => Some (PSt (sc s) (arrs s) [] (cyc s), rows s)
  end.
End Print.

(** ** The tree printer, 776-861, with the default separator *)
(** Its output as a sequence of row names, row values, and the two brackets. *)
Inductive token := TName (r : row) | TVal (r : row) | TOpen | TClose.
Fixpoint emit_tree (l : list row) : list token :=
  match l with
  | [] => []
  | r :: rest =>
      TName r ::
      match rest with
      | r2 :: _ => if level r <? level r2 then TOpen :: emit_tree rest
                   else TVal r :: repeat TClose (level r - level r2) ++ emit_tree rest
      | [] => TVal r :: repeat TClose (level r - 0) ++ []
      end
  end.

(** ** The table printer, 653-745 *)
Record cells := Cells { c_level : nat; c_name : str; c_type : str; c_size : str; c_val : str }.
Definition sp := 32.
Definition dash := 45.
(** s[1:k] of a string *)
Definition slice1 (s : str) (k : nat) : str := firstn (k - 1) (tl s).
Section Table.
Context (indent : nat).
Definition max_name (l : list cells) : nat := fold_left (fun m r => Nat.max m (indent * c_level r + length (c_name r))) l 4.
Definition max_type (l : list cells) : nat := fold_left (fun m r => Nat.max m (length (c_type r))) l 4.
Definition max_size (l : list cells) : nat := fold_left (fun m r => Nat.max m (length (c_size r))) l 4.
Definition max_val (l : list cells) : nat := fold_left (fun m r => Nat.max m (length (c_val r))) l 5.
Definition widest (l : list cells) : nat := Nat.max (max_name l) (Nat.max (max_type l) (Nat.max (max_size l) (Nat.max (max_val l) 100))).
Definition s_name : str := [78; 97; 109; 101].
Definition s_type : str := [84; 121; 112; 101].
Definition s_size : str := [83; 105; 122; 101].
Definition s_value : str := [86; 97; 108; 117; 101].
Definition header (l : list cells) : str :=                                    (* 704-714 *)
  let space := repeat sp (widest l) in
  s_name ++ slice1 space (max_name l - 2) ++ s_type ++ slice1 space (max_type l - 2) ++
  s_size ++ slice1 space (max_size l - 2) ++ s_value ++ slice1 space (max_val l - 5).
Definition dashes (l : list cells) : str :=                                    (* 705, 708, 711, 713 *)
  let d := repeat dash (widest l) in
  slice1 d (max_name l + 2) ++ slice1 d (max_type l + 2) ++ slice1 d (max_size l + 2) ++ slice1 d (max_val l).
Definition line (l : list cells) (r : cells) : str :=                          (* 725-733 *)
  let space := repeat sp (widest l) in
  slice1 space (c_level r * indent) ++ c_name r ++ slice1 space (max_name l - length (c_name r) - c_level r * indent + 2) ++
  c_type r ++ slice1 space (max_type l - length (c_type r) + 2) ++
  c_size r ++ slice1 space (max_size l - length (c_size r) + 2) ++
  c_val r ++ slice1 space (max_val l - length (c_val r)).
Definition emit_table (l : list cells) : list str := [dashes l; header l; dashes l] ++ map (line l) l ++ [dashes l].
End Table.
