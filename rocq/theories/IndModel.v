(** Model of copying register items, src/uvm/base/uvm_object.py 282-299, 511-539 with
    src/uvm/reg/uvm_reg_item.py 105-154, 198-229, and of indirect registers,
    src/uvm/reg/uvm_reg_indirect.py 118-168, 354-410 with the parts of
    src/uvm/reg/uvm_reg.py 852-960, 1252-1330, 1389-1553, 1579-1779 they run through.

    Items and value lists are numbers: several items can hold the same list. *)
From Coq Require Import ZArith List Bool Arith.
From Verif Require Import Prelude.
Import ListNotations.
Local Open Scope nat_scope.

(** ** Copying *)
Inductive access := Rd | Wr.
(** The attributes copied by do_copy (215-229); [rest] stands for all that are not used here. *)
Record item := Item { kind : access; vals : nat; imap : option nat; ok : bool; elem : option nat; rest : nat }.
Inductive obj := It (i : nat) | Ot (o : nat).       (* register items and other objects *)
Definition obj_eqb (a b : obj) : bool :=
  match a, b with It i, It j | Ot i, Ot j => Nat.eqb i j | _, _ => false end.

Record heap := Heap {
  items : nat -> item;
  cells : nat -> list Z;             (* the value lists *)
  nitem : nat; ncell : nat;          (* the next new ones *)
  gmap : list obj;                   (* uvm_global_copy_map *)
  depth : Z
}.
Definition heap0 : heap := Heap (fun _ => Item Rd 0 None true None 0) (fun _ => []) 0 1 [] 0.

Definition set_gd (h : heap) (g : list obj) (d : Z) : heap := Heap (items h) (cells h) (nitem h) (ncell h) g d.
Definition set_item (h : heap) (i : nat) (x : item) : heap :=
  Heap (upd (items h) i x) (cells h) (nitem h) (ncell h) (gmap h) (depth h).
Definition set_cell (h : heap) (c : nat) (l : list Z) : heap :=
  Heap (items h) (upd (cells h) c l) (nitem h) (ncell h) (gmap h) (depth h).

(** uvm_reg_item.py 105-154: a new item has a value list of its own. *)
Definition new_item (h : heap) : heap * nat :=
  (Heap (upd (items h) (nitem h) (Item Rd (ncell h) None true None 0)) (upd (cells h) (ncell h) [0%Z])
        (S (nitem h)) (S (ncell h)) (gmap h) (depth h), nitem h).

(** uvm_object.py 511-539 for items; 214 of uvm_reg_item.py calls copy, not do_copy. [fuel] bounds
    that recursion. *)
Fixpoint copy_item (fuel : nat) (h : heap) (d s : nat) : option heap :=
  match fuel with
  | O => None
  | S fuel =>
      if existsb (obj_eqb (It s)) (gmap h) then Some (set_gd h (gmap h) 0)
      else
        match copy_item fuel (set_gd h (It s :: gmap h) 1) d s with
        | None => None
        | Some h1 =>
            let h2 := set_item h1 d (items h1 s) in
            let d2 := (depth h2 - 1)%Z in
            Some (set_gd h2 (if (d2 =? 0)%Z then [] else gmap h2) d2)
        end
  end.
(** The same for another object without object fields. *)
Definition copy_other (h : heap) (s : nat) : heap :=
  if existsb (obj_eqb (Ot s)) (gmap h) then set_gd h (gmap h) 0 else set_gd h [] 0.
(** uvm_object.py 282-299 *)
Definition clone (h : heap) (s : nat) : option (heap * nat) :=
  let '(h1, t) := new_item h in
  match copy_item 3 h1 t s with Some h2 => Some (h2, t) | None => None end.

Fixpoint set_nth (l : list Z) (k : nat) (z : Z) : list Z :=
  match l, k with
  | [], _ => []
  | _ :: l, O => z :: l
  | x :: l, S k => x :: set_nth l k z
  end.
Definition value (h : heap) (i : nat) : list Z := cells h (vals (items h i)).

Inductive cop :=
| CNew
| CClone (s : nat)
| CCopy (d s : nat)
| COther (o : nat)                  (* o2.copy(o) or o.clone() of other objects *)
| CPoke (i k : nat) (z : Z)         (* item.value[k] = z *)
| CList (i : nat) (l : list Z)      (* item.value = [...] *)
| CAttr (i : nat) (k : access) (m : option nat) (s : bool) (e : option nat) (r : nat).

Definition cstep (h : heap) (c : cop) : option heap :=
  match c with
  | CNew => Some (fst (new_item h))
  | CClone s => match clone h s with Some (h1, _) => Some h1 | None => None end
  | CCopy d s => copy_item 3 h d s
  | COther o => Some (copy_other h o)
  | CPoke i k z => Some (set_cell h (vals (items h i)) (set_nth (value h i) k z))
  | CList i l =>
      let x := items h i in
      Some (Heap (upd (items h) i (Item (kind x) (ncell h) (imap x) (ok x) (elem x) (rest x)))
                 (upd (cells h) (ncell h) l) (nitem h) (S (ncell h)) (gmap h) (depth h))
  | CAttr i k m s e r => Some (set_item h i (Item k (vals (items h i)) m s e r))
  end.
Fixpoint crun (h : heap) (cs : list cop) : option heap :=
  match cs with [] => Some h | c :: cs => match cstep h c with Some h1 => crun h1 cs | None => None end end.

(** ** Indirect registers *)
(** The index register, the data register and the registers of the table; each but the data
    register has one RW field of its whole width. *)
Inductive reg := Idx | Dat | Tab (i : nat).
Definition reg_eqb (a b : reg) : bool :=
  match a, b with Idx, Idx | Dat, Dat => true | Tab i, Tab j => Nat.eqb i j | _, _ => false end.
Definition updr {A} (f : reg -> A) (r : reg) (v : A) : reg -> A := fun x => if reg_eqb x r then v else f x.

Record op := Op { o_kind : access; o_reg : reg; o_data : Z; o_map : nat }.
Record sys := Sys {
  hp : heap;
  bus : list op;                      (* operations, oldest first *)
  mir : reg -> Z; des : reg -> Z;     (* mirrored and desired values *)
  held : reg -> bool                  (* the lock of the register is taken *)
}.
Definition with_hp (s : sys) (h : heap) : sys := Sys h (bus s) (mir s) (des s) (held s).
Definition with_held (s : sys) (r : reg) (b : bool) : sys := Sys (hp s) (bus s) (mir s) (des s) (updr (held s) r b).

(** What the bus answers *)
Record answers := Answers { idx_ok : bool; dat_ok : bool; rdata : Z; other_copy : bool }.
(* [other_copy]: another process copies some other object while the index is being written *)

Inductive result := Finished (s : sys) (status : bool) (v : Z) | Waits (s : sys).

Section Ind.
Variable size : nat.                  (* registers in the table *)
Variable bits : reg -> Z.             (* widths *)
Variable dflt : reg -> nat.           (* the default map; the data register asks the index register (179) *)
Variable auto : bool.                 (* get_auto_predict of the maps *)

Definition mask (r : reg) (z : Z) : Z := Z.land z (Z.ones (bits r)).
Definition head (l : list Z) : Z := match l with z :: _ => z | [] => 0%Z end.
Definition val0 (h : heap) (i : nat) : Z := head (value h i).
Definition put0 (h : heap) (i : nat) (z : Z) : heap := set_cell h (vals (items h i)) (set_nth (value h i) 0 z).

(** uvm_reg.py 1760-1779 with uvm_reg_field.py 1253-1317 *)
Definition predict_reg (s : sys) (r : reg) (z : Z) : sys :=
  Sys (hp s) (bus s) (updr (mir s) r (mask r z)) (updr (des s) r (mask r z)) (held s).
(** uvm_reg_indirect.py 148-168 for the data register *)
Definition predict (s : sys) (r : reg) (z : Z) : sys :=
  match r with
  | Dat => if (Z.of_nat size <=? des s Idx)%Z then s else predict_reg s (Tab (Z.to_nat (des s Idx))) z
  | _ => predict_reg s r z
  end.
Definition autop (s : sys) (r : reg) (z : Z) : sys := if auto then predict s r z else s.

(** uvm_reg.py 1280-1330, front door *)
Definition check_access (h : heap) (r : reg) (i : nat) : heap :=
  let x := items h i in
  set_item h i (Item (kind x) (vals x) (Some (match imap x with Some m => m | None => dflt (match r with Dat => Idx | _ => r end) end))
                  (ok x) (elem x) (rest x)).
Definition set_ok (h : heap) (i : nat) (b : bool) : heap :=
  let x := items h i in set_item h i (Item (kind x) (vals x) (imap x) b (elem x) (rest x)).
Definition the_map (x : item) : nat := match imap x with Some m => m | None => 0 end.

(** 1389-1553 for a register without front door sequence: the operation on the bus has the kind
    of the item (uvm_reg_map.py 1393). *)
Definition do_write (s : sys) (r : reg) (i : nat) (okb : bool) : sys :=
  let h1 := check_access (hp s) r i in
  let v := mask r (val0 h1 i) in
  let h2 := set_ok (put0 h1 i v) i true in
  let x := items h2 i in
  let s1 := Sys (set_ok h2 i okb) (bus s ++ [Op (kind x) r v (the_map x)]) (mir s) (des s) (held s) in
  autop s1 r v.
(** 1579-1757 *)
Definition do_read (s : sys) (r : reg) (i : nat) (okb : bool) (data : Z) : sys :=
  let h1 := set_ok (check_access (hp s) r i) i true in
  let x := items h1 i in
  let h2 := put0 (set_ok h1 i okb) i (if okb then data else 0%Z) in
  let s1 := Sys h2 (bus s ++ [Op (kind x) r 0%Z (the_map x)]) (mir s) (des s) (held s) in
  autop s1 r (val0 h2 i).

(** uvm_reg_indirect.py 373-410, [rw] the item of the access to register [n] of the table *)
Definition body (s : sys) (n rw : nat) (a : answers) : option result :=
  match clone (hp s) rw with                                     (* 378-381 *)
  | None => None
  | Some (h1, c) =>
      let x := items h1 c in
      let h2 := put0 (set_item h1 c (Item Wr (vals x) (imap x) (ok x) (Some 0) (rest x))) c (Z.of_nat n) in
      let s2 := with_hp s h2 in
      if held s Idx then Some (Waits s2)                        (* 386 *)
      else if held s Dat then Some (Waits (with_held s2 Idx true))   (* 387 *)
      else
        let s3 := do_write (with_held (with_held s2 Idx true) Dat true) Idx c (idx_ok a) in   (* 390 *)
        if negb (idx_ok a) then Some (Finished s3 true 0%Z)     (* 392-393; rw_info is as it was *)
        else
          let s4 := if other_copy a then with_hp s3 (copy_other (hp s3) 0) else s3 in
          match clone (hp s4) rw with                            (* 396-398 *)
          | None => None
          | Some (h5, c2) =>
              let x2 := items h5 c2 in
              let s5 := with_hp s4 (set_item h5 c2 (Item (kind x2) (vals x2) (imap x2) (ok x2) (Some 1) (rest x2))) in
              let s6 :=
                match kind (items (hp s5) rw) with
                | Wr => do_write s5 Dat c2 (dat_ok a)            (* 402 *)
                | Rd =>
                    let s7 := do_read s5 Dat c2 (dat_ok a) (rdata a) in   (* 404-405 *)
                    with_hp s7 (put0 (hp s7) rw (val0 (hp s7) c2))
                end in
              let s8 := with_held (with_held s6 Idx false) Dat false in   (* 407-408 *)
              Some (Finished (with_hp s8 (set_ok (hp s8) rw (ok (items (hp s8) c2)))) true 0%Z)   (* 410 *)
          end
  end.

(** uvm_reg.py 852-960 with 1389-1553 or 1579-1757 for a register of the table *)
Definition tab_access (s : sys) (k : access) (n : nat) (v : Z) (m : option nat) (a : answers) : option result :=
  if held s (Tab n) then Some (Waits s)
  else
    let s0 := with_held s (Tab n) true in
    let s1 := match k with Wr => Sys (hp s0) (bus s0) (mir s0) (updr (des s0) (Tab n) (mask (Tab n) v)) (held s0) | Rd => s0 end in
    let '(h1, rw) := new_item (hp s1) in
    let h2 := match k with Wr => put0 h1 rw v | Rd => h1 end in
    let x := items h2 rw in
    let h3 := check_access (set_item h2 rw (Item k (vals x) m (ok x) (Some (2 + n)) (rest x))) (Tab n) rw in
    let h4 := match k with Wr => put0 h3 rw (mask (Tab n) (val0 h3 rw)) | Rd => h3 end in
    let s2 := with_hp s1 (set_ok h4 rw true) in
    match body s2 n rw a with
    | None => None
    | Some (Waits s3) => Some (Waits s3)
    | Some (Finished s3 _ _) =>
        let z := val0 (hp s3) rw in
        Some (Finished (with_held (autop s3 (Tab n) z) (Tab n) false) (ok (items (hp s3) rw)) z)
    end.
(** A direct access to the index or the data register (uvm_reg_indirect.py 217-274 for the latter) *)
Definition direct (s : sys) (r : reg) (k : access) (v : Z) (m : option nat) (okb : bool) (data : Z) : option result :=
  if held s r then Some (Waits s)
  else
    let '(h1, rw) := new_item (hp s) in
    let h2 := match k with Wr => put0 h1 rw v | Rd => h1 end in
    let x := items h2 rw in
    let s1 := with_hp s (set_item h2 rw (Item k (vals x) m (ok x) (Some 0) (rest x))) in
    let s2 := match k with
              | Wr => do_write (match r with Idx => Sys (hp s1) (bus s1) (mir s1) (updr (des s1) r (mask r v)) (held s1) | _ => s1 end) r rw okb
              | Rd => do_read s1 r rw okb data
              end in
    Some (Finished s2 (ok (items (hp s2) rw)) (val0 (hp s2) rw)).

(** Calls of a user, one after the other: a process that waits for a lock stays there (also after
    a reset), others go on. *)
Inductive ucall :=
| UTab (k : access) (n : nat) (v : Z) (m : option nat) (a : answers)
| UDirect (r : reg) (k : access) (v : Z) (m : option nat) (okb : bool) (data : Z)
| UReset (r : reg).                  (* reg.reset(): puts the lock back (814-816); the reset values are left out *)
Definition ustep (s : sys) (u : ucall) : option result :=
  match u with
  | UTab k n v m a => tab_access s k n v m a
  | UDirect r k v m okb data => direct s r k v m okb data
  | UReset r => Some (Finished (with_held s r false) true 0%Z)
  end.
End Ind.
