(** Model of the accesses of a memory, src/uvm/reg/uvm_mem.py, of the sequences
    src/uvm/reg/sequences/uvm_mem_walk_seq.py and uvm_mem_access_seq.py, and of the overlap
    check of memories in src/uvm/reg/uvm_reg_map.py. *)
From Coq Require Import ZArith List Bool Arith.
From Verif Require Import RegMapModel.
Import ListNotations.
Open Scope Z_scope.

(** ** Accesses: Xcheck_accessX 903-964, do_write 968-1067, do_read 1071-1165.

    Not modelled: user front doors and back doors, callbacks and the pre/post hooks,
    coverage, messages other than errors. *)
Inductive mpath := MFront | MBack | MDefault.
Record mcfg := MCfg {
  m_size : Z;
  m_bits : Z;
  m_rw : bool;              (* get_access(rw.map) == "RW", 1023 *)
  m_dflt_back : bool;       (* the block's default path (914) is the back door *)
  m_hdl : bool;             (* there is an HDL path, 917 *)
  m_map_given : bool;       (* a map argument was given *)
  m_local : bool;           (* get_local_map finds a map, 926 *)
  m_unmapped : bool;
  m_lbytes : Z;             (* rw.local_map.get_n_bytes(), 948 *)
  m_addrs : list Z;         (* the map's record of the memory: addresses of element 0 *)
  m_stride : Z
}.
Inductive merr := EOffset | ENoTransactor | EUnmapped | ENarrow | EBurstEnd | ENoHdl.

(** 903-964: the errors reported, the path, whether there is a map record.
    [None]: AttributeError, 931 and 942, naming the map when none was given. The returned 0 or 1 is
    compared with [is False] (975, 1078), so it never stops the access. *)
Definition check_access (c : mcfg) (p : mpath) (offset : Z) (n : nat) : option (list merr * mpath * bool) :=
  if m_size c <=? offset then Some ([EOffset], p, false)                       (* 906-911 *)
  else
    let p := match p with MDefault => if m_dflt_back c then MBack else MFront | _ => p end in
    let p := match p with MBack => if m_hdl c then MBack else MFront | _ => p end in
    match p with
    | MBack => Some ([], MBack, false)
    | _ =>
        if negb (m_local c) then
          if m_map_given c then Some ([ENoTransactor], p, false) else None     (* 928-933 *)
        else if m_unmapped c then
          if m_map_given c then Some ([EUnmapped], p, true) else None          (* 940-945 *)
        else if (1 <? n)%nat then
          if m_lbytes c * 8 <? m_bits c then Some ([ENarrow], p, true)         (* 948-953 *)
          else if m_size c <? offset + Z.of_nat n then Some ([EBurstEnd], p, true)   (* 955-959 *)
          else Some ([], p, true)
        else Some ([], p, true)
    end.

(** The DUT: what the bus reaches and the HDL array the back door reaches, whose elements
    are as wide as the memory. *)
Record dut := Dut { d_bus : dev; d_hdl : Z -> Z }.
Definition trunc (n v : Z) : Z := Z.land v (Z.shiftl 1 n - 1).

(** 1434-1453, one HDL path for the whole element (slice offset below 0); uvm_hdl_deposit *)
Fixpoint hdl_write (n : Z) (h : Z -> Z) (offset : Z) (vs : list Z) : Z -> Z :=
  match vs with
  | [] => h
  | v :: t => hdl_write n (setz h offset (trunc n v)) (offset + 1) t
  end.
(** 1474-1504 *)
Definition hdl_read (n : Z) (h : Z -> Z) (offset : Z) (count : nat) : list Z :=
  map (fun i => trunc n (h (offset + Z.of_nat i))) (seq 0 count).

Inductive mres (A : Type) :=
| MRaised (errs : list merr)
| MDone (a : A) (st : status) (errs : list merr).
Arguments MRaised {A}. Arguments MDone {A}.

Section Access.
Variables (ok : Z -> bool) (order : list busop -> list busop).

(** 968-1067; the result has the new state of the DUT and the bus accesses. An unmapped memory
    has a record without addresses. *)
Definition do_write (c : mcfg) (y : dut) (p : mpath) (offset : Z) (vs : list Z)
  : mres (dut * list (list busop)) :=
  match check_access c p offset (length vs) with
  | None => MRaised []
  | Some (errs, p, info) =>
      match p with
      | MFront =>
          if info then
            let A := if m_unmapped c then [] else mem_addrs (m_addrs c) (m_stride c) offset in
            let '(d, st, log) := bus_write ok order (m_lbytes c) (m_stride c) (d_bus y) NOT_OK A vs in
            MDone (Dut d (d_hdl y), log) st errs
          else MRaised errs                                     (* IndexError, 999 *)
      | _ =>                                                    (* 1019-1031 *)
          if m_rw c then
            if m_hdl c then MDone (Dut (d_bus y) (hdl_write (m_bits c) (d_hdl y) offset vs), []) IS_OK errs
            else MDone (y, []) IS_OK (errs ++ [ENoHdl])         (* 1375-1378: no path, no deposit *)
          else MDone (y, []) IS_OK errs
      end
  end.
(** 1071-1165; [n] elements of rw.value. Without an HDL path the values stay as initialised. *)
Definition do_read (c : mcfg) (y : dut) (p : mpath) (offset : Z) (n : nat)
  : mres (list Z * list (list Z)) :=
  match check_access c p offset n with
  | None => MRaised []
  | Some (errs, p, info) =>
      match p with
      | MFront =>
          if info then
            let A := if m_unmapped c then [] else mem_addrs (m_addrs c) (m_stride c) offset in
            let '(vs, st, log) := bus_read ok order (m_lbytes c) (m_stride c) (d_bus y) NOT_OK A n in
            MDone (vs, log) st errs
          else MRaised errs
      | _ =>
          if m_hdl c then MDone (hdl_read (m_bits c) (d_hdl y) offset n, []) IS_OK errs
          else MDone (repeat 0 n, []) IS_OK (errs ++ [ENoHdl])
      end
  end.
(** 624-644, 668-689, 715-733 *)
Definition write c y p offset v := do_write c y p offset [v].
Definition read c y p offset := do_read c y p offset 1.
Definition burst_write c y p offset vs := do_write c y p offset vs.
(** 759-780: the list argument has to be empty (762) and becomes rw.value (768) *)
Definition burst_read c y p offset := do_read c y p offset 0.
End Access.

(** 801-838, 860-897, without a user back door *)
Definition poke (c : mcfg) (y : dut) (offset v : Z) : dut * status * list merr :=
  if m_hdl c then (Dut (d_bus y) (hdl_write (m_bits c) (d_hdl y) offset [trunc (m_bits c) v]), IS_OK, [])
  else (y, NOT_OK, [ENoHdl]).
Definition peek (c : mcfg) (y : dut) (offset : Z) : list Z * status * list merr :=
  if m_hdl c then (hdl_read (m_bits c) (d_hdl y) offset 1, IS_OK, [])
  else ([], NOT_OK, [ENoHdl]).

(** ** UVMMemSingleWalkSeq.body for one map, uvm_mem_walk_seq.py 135-184. The memory is
    a device with writes and reads of elements. *)
Inductive werr :=
| WStatusRaise (k : Z)               (* 143: status.name() of an int, AttributeError *)
| WReadStatus (k : Z)                (* 151, 176 *)
| WMismatch (k v e : Z)              (* 158, 183 *)
| WWriteStatus (k : Z).              (* 166 *)
Section Walk.
Context {D : Type}.
Variables (wr : D -> Z -> Z -> D * status) (rd : D -> Z -> Z * status) (n_bits size : Z).

Definition is_ok (s : status) : bool := match s with IS_OK => true | NOT_OK => false end.
Definition check_elem (d : D) (k : Z) : list werr :=
  let '(v, s) := rd d k in
  if is_ok s then
    let e := trunc n_bits (Z.lnot k) in if v =? e then [] else [WMismatch k v e]
  else [WReadStatus k].
(** 136-184; the boolean tells whether an exception left the sequence *)
Definition walk_step (d : D) (k : Z) : D * list werr * bool :=
  let '(d1, s1) := wr d k (Z.lnot k) in
  if is_ok s1 then
    let '(d2, e2) :=
      if 0 <? k then
        let e := check_elem d1 (k - 1) in
        let '(d2, s2) := wr d1 (k - 1) (k - 1) in
        (d2, e ++ (if is_ok s2 then [] else [WWriteStatus (k - 1)]))
      else (d1, []) in
    let e3 := if k =? size - 1 then check_elem d2 k else [] in
    (d2, e2 ++ e3, false)
  else (d1, [WStatusRaise k], true).
Fixpoint walk_from (n : nat) (k : Z) (d : D) : D * list werr :=
  match n with
  | O => (d, [])
  | S n' =>
      let '(d1, e1, raised) := walk_step d k in
      if raised then (d1, e1)
      else let '(d2, e2) := walk_from n' (k + 1) d1 in (d2, e1 ++ e2)
  end.
Definition walk (d : D) : D * list werr := walk_from (Z.to_nat size) 0 d.
End Walk.

(** ** UVMMemSingleAccessSeq.body for one map, uvm_mem_access_seq.py 110-187, with an HDL path
    and without a user back door. [mode] is mem.get_access(map) (uvm_mem.py 401-435), which
    is None for a memory in several maps whose rights are not "RW". *)
Inductive mmode := ModeRW | ModeRO | ModeWO | ModeNone.
Inductive aerr :=
| ARaised (k : Z)                    (* 123: peek() with an int for an output; 138, 176: status.name() *)
| ABack (k v e : Z)                  (* 154 *)
| AFront (k v e : Z).                (* 180, 185 *)
Section MemAccess.
Context {D : Type}.
Variables (wr : D -> Z -> Z -> D * status) (rd : D -> Z -> Z * status)
  (pk : D -> Z -> Z) (po : D -> Z -> Z -> D) (n_bits : Z).
(** 118-120 from the results of sv.random() *)
Definition draw (r1 r2 : Z) : Z :=
  let v := Z.land r1 (Z.shiftl 1 n_bits - 1) in
  if 32 <? n_bits then Z.lor (Z.shiftl v 32) r2 else v.
Definition access_step (mode : mmode) (d : D) (k v : Z) : D * list aerr * bool :=
  match mode with
  | ModeRO => (d, [ARaised k], true)
  | _ =>
      let '(d1, s1) := wr d k v in
      if is_ok s1 then
        let p := trunc n_bits (pk d1 k) in
        let e1 := if p =? v then [] else [ABack k p v] in
        let e := trunc n_bits (Z.lnot v) in
        let d2 := po d1 k (trunc n_bits e) in
        let '(f, s2) := rd d2 k in
        if is_ok s2 then
          let x := match mode with ModeWO => 0 | _ => e end in
          (d2, e1 ++ (if f =? x then [] else [AFront k f x]), false)
        else (d2, e1 ++ [ARaised k], true)
      else (d1, [ARaised k], true)
  end.
Fixpoint access_from (mode : mmode) (k : Z) (draws : list Z) (d : D) : D * list aerr :=
  match draws with
  | [] => (d, [])
  | v :: vs =>
      let '(d1, e1, raised) := access_step mode d k v in
      if raised then (d1, e1)
      else let '(d2, e2) := access_from mode (k + 1) vs d1 in (d2, e1 ++ e2)
  end.
(** one draw per element *)
Definition access_seq (mode : mmode) (draws : list Z) (d : D) : D * list aerr := access_from mode 0 draws d.
End MemAccess.

(** ** Overlapping memories, uvm_reg_map.py 177-216 for the memories in mapping order: the ranges
    entered before and, per memory, its range. On an overlap line 207 formats the builtins
    min and max as numbers: TypeError, [None]. *)
Definition mrange := (Z * Z)%type.
Definition overlap_test (m : mrange) (r : mrange) : bool :=
  let '(min1, max1) := m in let '(rmin, rmax) := r in
  (min1 <=? rmax) && (rmax <=? max1) || (min1 <=? rmin) && (rmin <=? max1) || (rmin <=? min1) && (max1 <=? rmax).
Fixpoint enter_mems (done : list mrange) (l : list mrange) : option (list mrange) :=
  match l with
  | [] => Some done
  | m :: l' => if existsb (overlap_test m) done then None else enter_mems (done ++ [m]) l'
  end.
(** 177-190: the lowest and the highest first-or-last address *)
Definition range_of (chain : list level) (offset n_bytes msize : Z) : mrange :=
  let a := get_physical_addresses chain offset 0 n_bytes in
  let b := get_physical_addresses chain offset (msize - 1) n_bytes in
  (Z.min (hd 0 a) (last a 0), Z.max (hd 0 b) (last b 0)).
