(** Model of src/uvm/reg/uvm_reg_field.py: values, access policies and
    predictions of a register field, and of the field-composing parts of
    src/uvm/reg/uvm_reg.py. *)
From Coq Require Import ZArith List Bool Arith Lia.
Import ListNotations.
Open Scope Z_scope.

(** The predefined policies, uvm_reg_field.py:348-372, plus NOACCESS and
    user-defined ones (define_access, 307-338). Names are compared as strings in
    the code; [upper()] is not modelled. *)
Inductive policy :=
  RO | RW | RC | RS | WRC | WRS | WC | WS | WSRC | WCRS | W1C | W1S | W1T | W0C | W0S | W0T
| W1SRC | W1CRS | W0SRC | W0CRS | WO | WOC | WOS | W1 | WO1 | NOACCESS | USER (n : nat).

Definition policy_eq_dec (a b : policy) : {a = b} + {a <> b}.
Proof. repeat decide equality. Defined.
Definition is_in (a : policy) (l : list policy) : bool :=
  if in_dec policy_eq_dec a l then true else false.

(** Rights of a register in a map (uvm_reg.py:433-460), or the backdoor map. *)
Inductive rights := RtRW | RtRO | RtWO | RtOther.
Inductive via := Backdoor | Map (r : rights).

Record field := Field {
  size : Z; lsb : Z; access : policy; volatile : bool;
  mirrored : Z; desired : Z; written : bool;
  resets : list (nat * Z)            (* m_reset; kind 0 is "HARD" *)
}.

(** 1117-1118 *)
Definition get_mask (f : field) : Z := Z.shiftl 1 (size f) - 1.

(** 375-430 *)
Definition get_access (f : field) (v : via) : policy :=
  match v with
  | Backdoor => access f
  | Map RtRW => access f
  | Map RtRO =>
      if is_in (access f) [RW; RO; WC; WS; W1C; W1S; W1T; W0C; W0S; W0T; W1] then RO
      else if is_in (access f) [RC; WRC; W1SRC; W0SRC; WSRC] then RC
      else if is_in (access f) [RS; WRS; W1CRS; W0CRS; WCRS] then RS
      else if is_in (access f) [WO; WOC; WOS; WO1] then NOACCESS
      else access f
  | Map RtWO =>
      let fa := NOACCESS in                                        (* 418 *)
      if is_in fa [RW; WO] then WO else fa                         (* 419-420 *)
  | Map RtOther => NOACCESS
  end.

Definition with_desired (f : field) (d : Z) : field :=
  Field (size f) (lsb f) (access f) (volatile f) (mirrored f) d (written f) (resets f).
Definition with_both (f : field) (v : Z) : field :=
  Field (size f) (lsb f) (access f) (volatile f) v v (written f) (resets f).
Definition with_written (f : field) (b : bool) : field :=
  Field (size f) (lsb f) (access f) (volatile f) (mirrored f) (desired f) b (resets f).
Definition with_access (f : field) (a : policy) : field :=
  Field (size f) (lsb f) a (volatile f) (mirrored f) (desired f) (written f) (resets f).
Definition with_resets (f : field) (l : list (nat * Z)) : field :=
  Field (size f) (lsb f) (access f) (volatile f) (mirrored f) (desired f) (written f) l.

(** 484-596; the warnings have no other effect *)
Definition set_value (f : field) (value : Z) : Z :=
  let mask := get_mask f in
  let value := if Z.shiftr value (size f) =? 0 then value else Z.land value mask in
  match access f with
  | RO => desired f | RW => value | RC => desired f | RS => desired f
  | WC => 0 | WS => mask | WRC => value | WRS => value | WSRC => mask | WCRS => 0
  | W1C => Z.land (desired f) (Z.lnot value)
  | W1S => Z.lor (desired f) value
  | W1T => Z.lxor (desired f) value
  | W0C => Z.land (desired f) value
  | W0S => Z.lor (desired f) (Z.land (Z.lnot value) mask)
  | W0T => Z.lxor (desired f) (Z.land (Z.lnot value) mask)
  | W1SRC => Z.lor (desired f) value
  | W1CRS => Z.land (desired f) (Z.lnot value)
  | W0SRC => Z.lor (desired f) (Z.land (Z.lnot value) mask)
  | W0CRS => Z.land (desired f) value
  | WO => value | WOC => 0 | WOS => mask
  | W1 => if written f then desired f else value
  | WO1 => if written f then desired f else value
  | NOACCESS => value | USER _ => value
  end.
Definition f_set (f : field) (value : Z) : field := with_desired f (set_value f value).

(** 723-736, 653-679, 697-699 *)
Fixpoint assoc (k : nat) (l : list (nat * Z)) : option Z :=
  match l with [] => None | (k', v) :: l => if Nat.eqb k k' then Some v else assoc k l end.
Definition f_set_reset (f : field) (value : Z) (kind : nat) : field :=
  with_resets f ((kind, Z.land value (Z.shiftl 1 (size f) - 1)) :: resets f).
Definition f_reset (f : field) (kind : nat) : field :=
  match assoc kind (resets f) with
  | None => f
  | Some v => let f := with_both f v in if Nat.eqb kind 0 then with_written f false else f
  end.
Definition f_get_reset (f : field) (kind : nat) : Z :=
  match assoc kind (resets f) with None => desired f | Some v => v end.

(** 738-756 *)
Definition needs_update (f : field) : bool := negb (mirrored f =? desired f) || volatile f.

(** 1122-1199 *)
Definition XpredictX (f : field) (cur_val wr_val : Z) (m : via) : Z :=
  let mask := get_mask f in
  match get_access f m with
  | RO => cur_val | RW => wr_val | RC => cur_val | RS => cur_val
  | WC => 0 | WS => mask | WRC => wr_val | WRS => wr_val | WSRC => mask | WCRS => 0
  | W1C => Z.land cur_val (Z.lnot wr_val)
  | W1S => Z.lor cur_val wr_val
  | W1T => Z.lxor cur_val wr_val
  | W0C => Z.land cur_val wr_val
  | W0S => Z.lor cur_val (Z.land (Z.lnot wr_val) mask)
  | W0T => Z.lxor cur_val (Z.land (Z.lnot wr_val) mask)
  | W1SRC => Z.lor cur_val wr_val
  | W1CRS => Z.land cur_val (Z.lnot wr_val)
  | W0SRC => Z.lor cur_val (Z.land (Z.lnot wr_val) mask)
  | W0CRS => Z.land cur_val wr_val
  | WO => wr_val | WOC => 0 | WOS => mask
  | W1 => if written f then cur_val else wr_val
  | WO1 => if written f then cur_val else wr_val
  | NOACCESS => cur_val
  | USER _ => wr_val
  end.

(** 1203-1242 *)
Definition XupdateX (f : field) : Z :=
  Z.land
    match access f with
    | W1C => Z.lnot (desired f) | W1S => desired f
    | W1T => Z.lxor (desired f) (mirrored f)
    | W0C => desired f | W0S => Z.lnot (desired f)
    | W0T => Z.lnot (Z.lxor (desired f) (mirrored f))
    | W1SRC => desired f | W1CRS => Z.lnot (desired f)
    | W0SRC => Z.lnot (desired f) | W0CRS => desired f
    | _ => desired f
    end (get_mask f).

(** 1253-1317. The value and status of [rw] are passed and returned explicitly;
    [None] is the raised exception. post_predict callbacks get the value by
    value and cannot change it. [ok] is rw.status <> UVM_NOT_OK. *)
Inductive pkind := PDirect | PWrite | PRead.
Inductive path := FrontOrPredict | BackPath.
Definition do_predict (busy : bool) (f : field) (v : Z) (k : pkind) (p : path) (m : via) (be : Z) (ok : bool)
  : option (field * bool) :=
  let field_val := Z.land v (get_mask f) in
  if Z.land 1 be =? 0 then None
  else match k with
  | PWrite =>
      let nv := match p with FrontOrPredict => XpredictX f (mirrored f) field_val m | BackPath => field_val end in
      let f := with_written f true in
      Some (with_both f (Z.land nv (get_mask f)), ok)
  | PRead =>
      match p with
      | FrontOrPredict =>
          let acc := get_access f m in
          if is_in acc [RC; WRC; WSRC; W1SRC; W0SRC] then Some (with_both f (Z.land 0 (get_mask f)), ok)
          else if is_in acc [RS; WRS; WCRS; W1CRS; W0CRS] then Some (with_both f (Z.land (get_mask f) (get_mask f)), ok)
          else if is_in acc [WO; WOC; WOS; WO1; NOACCESS] then Some (f, ok)
          else Some (with_both f (Z.land field_val (get_mask f)), ok)
      | BackPath => Some (with_both f (Z.land field_val (get_mask f)), ok)
      end
  | PDirect => Some (with_both f field_val, if busy then false else ok)
  end.

(** 104-177: size 0 becomes 1; reset value if has_reset *)
Definition configure (sz lsb_pos : Z) (acc : policy) (vol : bool) (reset : Z) (has_reset : bool) : field :=
  let sz := if sz =? 0 then 1 else sz in
  let f := Field sz lsb_pos acc vol 0 0 false [] in
  if has_reset then f_set_reset f reset 0 else f.

(** Histories of one field. Randomisation picks any value of the range given at
    line 145. *)
Inductive fop :=
| FSet (v : Z) | FReset (kind : nat) | FSetReset (v : Z) (kind : nat)
| FPredict (busy : bool) (v : Z) (k : pkind) (p : path) (m : via) (be : Z)
| FSetAccess (a : policy) | FRandomize (v : Z).
Definition fstep (f : field) (o : fop) : field :=
  match o with
  | FSet v => f_set f v
  | FReset k => f_reset f k
  | FSetReset v k => f_set_reset f v k
  | FPredict busy v k p m be =>
      match do_predict busy f v k p m be true with Some (f', _) => f' | None => f end
  | FSetAccess a => with_access f a
  | FRandomize v => with_desired f v
  end.
Definition frun (f : field) (os : list fop) : field := fold_left fstep os f.
