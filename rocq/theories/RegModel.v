(** Model of the value-carrying parts of src/uvm/reg/uvm_reg.py. *)
From Coq Require Import ZArith List Bool Arith Lia.
From Verif Require Import RegFieldModel.
Import ListNotations.
Open Scope Z_scope.

Record reg := Reg {
  n_bits : Z; n_used : Z; locked : bool; busy : bool; fields : list field
}.
(** uvm_reg.py:66-120 *)
Definition new_reg (n : Z) : reg := Reg (if n =? 0 then 1 else n) 0 false false [].

(** ** add_field, 197-246 *)
Inductive add_err := ELocked | EBits | EOverlap.

(** 216-221: insert before the first field with a greater position; the index
    is -1 when there is none *)
Fixpoint insert_loop (f : field) (i : Z) (l : list field) : option (list field * Z) :=
  match l with
  | [] => None
  | g :: l' =>
      if lsb f <? lsb g then Some (f :: g :: l', i)
      else match insert_loop f (i + 1) l' with
           | Some (l2, k) => Some (g :: l2, k)
           | None => None
           end
  end.
Definition nthz (l : list field) (i : Z) : option field :=
  if i <? 0 then None else nth_error l (Z.to_nat i).
Definition add_field (r : reg) (f : field) : reg * list add_err :=
  if locked r then (r, [ELocked])
  else
    let '(fs, idx) :=
      match insert_loop f 0 (fields r) with
      | Some (l, i) => (l, i)
      | None => (fields r ++ [f], Z.of_nat (length (fields r)))
      end in
    let used := n_used r + size f in
    let e1 := if n_bits r <? used then [EBits] else [] in
    let e2 := if 0 <? idx
              then match nthz fs (idx - 1) with
                   | Some g => if lsb f <? lsb g + size g then [EOverlap] else []
                   | None => [] end
              else [] in
    let e3 := if idx <? Z.of_nat (length fs) - 1
              then match nthz fs (idx + 1) with
                   | Some g => if lsb g <? lsb f + size f then [EOverlap] else []
                   | None => [] end
              else [] in
    (Reg (n_bits r) used (locked r) (busy r) fs, e1 ++ e2 ++ e3).
Fixpoint add_fields (r : reg) (fs : list field) : reg * list add_err :=
  match fs with
  | [] => (r, [])
  | f :: fs => let '(r1, e1) := add_field r f in let '(r2, e2) := add_fields r1 fs in (r2, e1 ++ e2)
  end.

Definition with_fields (r : reg) (fs : list field) : reg :=
  Reg (n_bits r) (n_used r) (locked r) (busy r) fs.
Definition slice (v : Z) (f : field) : Z := Z.land (Z.shiftr v (lsb f)) (Z.shiftl 1 (size f) - 1).

(** 666-702, 704-739, 742-771 *)
Definition reg_set (r : reg) (value : Z) : reg :=
  with_fields r (map (fun f => f_set f (slice value f)) (fields r)).
Definition compose (g : field -> Z) (fs : list field) : Z :=
  fold_left (fun acc f => Z.lor acc (Z.shiftl (g f) (lsb f))) fs 0.
Definition reg_get (r : reg) : Z := compose desired (fields r).
Definition reg_get_mirrored (r : reg) : Z := compose mirrored (fields r).
(** 774-788 *)
Definition reg_needs_update (r : reg) : bool := existsb needs_update (fields r).
(** 791-818 (field part), 842-850 *)
Definition reg_reset (r : reg) (kind : nat) : reg :=
  Reg (n_bits r) (n_used r) (locked r) false (map (fun f => f_reset f kind) (fields r)).
Definition reg_set_reset (r : reg) (value : Z) (kind : nat) : reg :=
  with_fields r (map (fun f => f_set_reset f (Z.shiftr value (lsb f)) kind) (fields r)).

(** 1760-1779; the result tells whether rw.status is OK, or that the exception
    of the field was raised. Fields before the raising one are updated. *)
Inductive pres := POk (ok : bool) | PRaised.
Fixpoint predict_fields (b : bool) (fs : list field) (v : Z) (k : pkind) (p : path) (m : via) (be : Z) (ok : bool)
  : list field * pres :=
  match fs with
  | [] => ([], POk ok)
  | f :: fs =>
      match do_predict b f (slice v f) k p m (Z.shiftr be (Z.quot (lsb f) 8)) ok with
      | None => (f :: fs, PRaised)
      | Some (f', ok') => let '(fs', r) := predict_fields b fs v k p m be ok' in (f' :: fs', r)
      end
  end.
Definition is_direct (k : pkind) : bool := match k with PDirect => true | _ => false end.
Definition reg_predict (r : reg) (v : Z) (k : pkind) (p : path) (m : via) (be : Z) : reg * pres :=
  if busy r && is_direct k then (r, POk false)
  else let '(fs, x) := predict_fields (busy r) (fields r) v k p m be true in (with_fields r fs, x).

(** Front-door write with automatic prediction, 852-915 and 1389-1555 with no
    callbacks: the value sent to the bus, and the register afterwards. The loop
    of 1424-1437 takes each field's slice out and puts it back. [busok] is the
    status of the bus operation. *)
Definition pre_write_value (r : reg) (v : Z) : Z :=
  fold_left (fun value f =>
      let msk := Z.shiftl (Z.shiftl 1 (size f) - 1) (lsb f) in
      Z.lor (Z.land value (Z.lnot msk)) (Z.shiftl (Z.shiftr (Z.land value msk) (lsb f)) (lsb f)))
    (fields r) (Z.land v (Z.shiftl 1 (n_bits r) - 1)).
Definition reg_write (r : reg) (v : Z) (m : via) : Z * reg :=
  let r := reg_set r v in
  let bv := pre_write_value r v in
  (bv, fst (reg_predict r bv PWrite FrontOrPredict m (-1))).
(** Front-door read that observed [v] on the bus, with automatic prediction
    (1579-1757) *)
Definition reg_read (r : reg) (v : Z) (m : via) : reg :=
  fst (reg_predict r v PRead FrontOrPredict m (-1)).
(** 1011-1062: the bus value written, if any *)
Definition reg_update (r : reg) (m : via) : option Z * reg :=
  if reg_needs_update r then
    let upd := compose XupdateX (fields r) in
    let '(bv, r') := reg_write r upd m in (Some bv, r')
  else (None, r).

(** 1339-1361: the result of do_check, with the fields marked as not compared.
    [acc[0:1]] is one character, so never equal to "WO". *)
Definition first_char_is_WO (p : policy) : bool := false.
Definition do_check (fs : list (field * bool)) (expected actual : Z) (m : via) : bool :=
  let dc := fold_left (fun dc (x : field * bool) =>
      let (f, nocheck) := x in
      if nocheck || first_char_is_WO (get_access f m)
      then Z.lor dc (Z.shiftl (Z.shiftl 1 (size f) - 1) (lsb f)) else dc) fs 0 in
  Z.lor actual dc =? Z.lor expected dc.

(** 527-554 *)
Inductive racc := ARW | ARO | AWO.
Fixpoint fields_access (fs : list field) (m : via) (is_R is_W : bool) : racc :=
  match fs with
  | [] => if negb is_R && is_W then AWO else if is_R && negb is_W then ARO else ARW
  | f :: fs =>
      let a := get_access f m in
      if is_in a [RO; RC; RS] then (if is_W then ARW else fields_access fs m true is_W)
      else if is_in a [WO; WOC; WOS; WO1] then (if is_R then ARW else fields_access fs m is_R true)
      else ARW
  end.
