(** Model of the address and bus-access computations of
    src/uvm/reg/uvm_reg_map.py. *)
From Coq Require Import ZArith List Bool Arith Lia.
From Verif Require Import RegFieldModel RegModel.
Import ListNotations.
Open Scope Z_scope.

(** uvm_reg_model.py:189-193 *)
Inductive endian := NO_ENDIAN | LITTLE_ENDIAN | BIG_ENDIAN | LITTLE_FIFO | BIG_FIFO.

(** One map of a hierarchy (uvm_reg_map.py:247-320): m_n_bytes,
    m_byte_addressing, m_endian, and its position: m_base_addr for the root map,
    else the offset under which the parent map has registered it
    (m_submaps, 537-579). A map position is the chain of these records from the
    map itself up to the root. *)
Record level := Level { lw : Z; lbyte : bool; lend : endian; loff : Z }.

Definition mult (l : level) : Z := if lbyte l then lw l else 1.

(** [0; 1; ...; n-1], Python's range(n) *)
Definition zrange (n : Z) : list Z := map Z.of_nat (seq 0 (Z.to_nat n)).

(** Number of bus words, 1125. The code divides in floating point and truncates;
    the model divides exactly, which agrees as long as n_bytes < 2^52. *)
Definition words (n_bytes w : Z) : Z := (n_bytes - 1) / w + 1.

(** local_addr, 1120-1147 *)
Definition local_addrs (l : level) (base moff n_bytes : Z) : list Z :=
  if n_bytes <=? lw l then [base + moff * mult l]
  else
    let n := words n_bytes (lw l) in
    let b := base + moff * (n * mult l) in
    match lend l with
    | LITTLE_ENDIAN => map (fun i => b + i * mult l) (zrange n)
    | BIG_ENDIAN => map (fun i => b + (n - 1 - i) * mult l) (zrange n)
    | LITTLE_FIFO | BIG_FIFO => map (fun _ => b) (zrange n)
    | NO_ENDIAN => map (fun _ => 0) (zrange n)
    end.

(** 1165-1168 *)
Definition scale (l u : level) : Z :=
  if lw l <? lw u then 1 else (lw l - 1) / lw u + 1.

(** get_physical_addresses, 1077-1183. [addr] is the list argument the results
    are put into: the root map clears it first (1154), the other maps append to
    it (1177-1178); [sys_addr] (1159) is one list shared by all iterations of
    the loop over the local addresses. The result is the list and the returned
    bus width. [None] stands for the empty chain, which is no map. *)
Fixpoint phys (chain : list level) (base moff n_bytes : Z) (addr : list Z)
  : list Z * Z :=
  match chain with
  | [] => (addr, 0)
  | l :: up =>
      if n_bytes <=? 0 then (addr, 0)          (* uvm_fatal, 1115-1118 *)
      else
        let local := local_addrs l base moff n_bytes in
        match up with
        | [] => (map (fun a => a + loff l) local, lw l)
        | u :: _ =>
            let k := scale l u in
            let '(addr', _, w) :=
              fold_left
                (fun (acc : list Z * list Z * Z) a =>
                   let '(ad, sys, _) := acc in
                   let '(sys', w') := phys up (loff l + a * k) 0 (lw l) sys in
                   (ad ++ sys', sys', w'))
                local (addr, [], 0) in
            (addr', if w <? lw l then w else lw l)
        end
  end.

Definition get_physical_addresses (chain : list level) (base moff n_bytes : Z)
  : list Z := fst (phys chain base moff n_bytes []).
(** m_system_n_bytes as set by Xinit_address_mapX (119, 177, 220-222): the width
    returned for the last item mapped. *)
Definition system_width (chain : list level) (base n_bytes : Z) : Z :=
  snd (phys chain base 0 n_bytes []).

(** ** Bus accesses: do_bus_write 1317-1461, do_bus_read 1464-1611, for
    element kinds UVM_REG and UVM_MEM (individual field access is commented out
    in uvm_reg_field.py, so UVM_FIELD does not occur). The adapter, sequencer
    and driver are replaced by a bus target: a store indexed by address, and a
    predicate telling which addresses answer with a status other than
    UVM_NOT_OK. A failing write leaves the store unchanged. *)
Inductive status := IS_OK | NOT_OK.
Definition dev := Z -> Z.
Definition setz (d : dev) (a v : Z) : dev := fun b => if b =? a then v else d b.

(** UVMRegBusOp: address and data *)
Definition busop := (Z * Z)%type.

(** 1379-1404 *)
Fixpoint write_ops (value bw curr_byte : Z) (addrs : list Z) : list busop :=
  match addrs with
  | [] => []
  | a :: t =>
      (a, Z.land (Z.shiftr value (curr_byte * 8)) (Z.shiftl 1 (bw * 8) - 1))
        :: write_ops value bw (curr_byte + bw) t
  end.
(** 1529-1553: the data field carries the byte position *)
Fixpoint read_ops (bw curr_byte : Z) (addrs : list Z) : list busop :=
  match addrs with
  | [] => []
  | a :: t => (a, curr_byte) :: read_ops bw (curr_byte + bw) t
  end.

(** 1411-1458: stops after the first access that is not acknowledged; the third
    component lists the accesses performed. *)
Fixpoint write_loop (ok : Z -> bool) (d : dev) (st : status) (ops : list busop)
  : dev * status * list busop :=
  match ops with
  | [] => (d, st, [])
  | (a, v) :: t =>
      if ok a then
        let '(d', st', log) := write_loop ok (setz d a v) IS_OK t in
        (d', st', (a, v) :: log)
      else (d, NOT_OK, [(a, v)])
  end.
(** 1560-1605 *)
Fixpoint read_loop (ok : Z -> bool) (d : dev) (bw : Z) (st : status) (value : Z)
    (ops : list busop) : Z * status * list Z :=
  match ops with
  | [] => (value, st, [])
  | (a, cb) :: t =>
      if ok a then
        let data := Z.land (d a) (Z.shiftl 1 (bw * 8) - 1) in
        let '(v', st', log) :=
          read_loop ok d bw IS_OK (Z.lor value (Z.shiftl data (cb * 8))) t in
        (v', st', a :: log)
      else (value, NOT_OK, [a])
  end.

(** The loops over rw.value (1348, 1497); [order] is the transaction order
    policy (1407, 1556), [stride] the stride of the element's address range
    (1460, 1607; zero for registers, uvm_reg_map.py:51). *)
Fixpoint bus_write (ok : Z -> bool) (order : list busop -> list busop)
    (bw stride : Z) (d : dev) (st : status) (addrs : list Z) (values : list Z)
  : dev * status * list (list busop) :=
  match values with
  | [] => (d, st, [])
  | v :: vs =>
      let '(d1, st1, log1) := write_loop ok d st (order (write_ops v bw 0 addrs)) in
      let '(d2, st2, log2) :=
        bus_write ok order bw stride d1 st1 (map (fun a => a + stride) addrs) vs in
      (d2, st2, log1 :: log2)
  end.
Fixpoint bus_read (ok : Z -> bool) (order : list busop -> list busop)
    (bw stride : Z) (d : dev) (st : status) (addrs : list Z) (n : nat)
  : list Z * status * list (list Z) :=
  match n with
  | O => ([], st, [])
  | S n' =>
      let '(v, st1, log1) := read_loop ok d bw st 0 (order (read_ops bw 0 addrs)) in
      let '(vs, st2, log2) :=
        bus_read ok order bw stride d st1 (map (fun a => a + stride) addrs) n' in
      (v :: vs, st2, log1 :: log2)
  end.

(** Memory: the range computed when the map is initialised (164-216): first
    element's addresses and the stride. A memory with one element divides by
    zero (192): [None]. *)
Definition mem_range (chain : list level) (offset n_bytes msize : Z)
  : option (list Z * Z) :=
  let addrs := get_physical_addresses chain offset 0 n_bytes in
  let addrs_max := get_physical_addresses chain offset (msize - 1) n_bytes in
  if msize - 1 =? 0 then None
  else Some (addrs, Z.quot (hd 0 addrs_max - hd 0 addrs) (msize - 1)).
(** 1344-1346, 1493-1495 *)
Definition mem_addrs (addrs : list Z) (stride offset : Z) : list Z :=
  map (fun a => a + stride * offset) addrs.

(** ** Address map initialisation, Xinit_address_mapX 98-225 (registers). *)

(** m_regs_info entry; [unmapped] registers are skipped (115). *)
Record mreg := MReg { r_id : nat; r_off : Z; r_bytes : Z; r_unmapped : bool }.
(** A map with its submaps and registers. *)
Inductive rmap := RMap (lv : level) (subs : list rmap) (regs : list mreg).

(** An initialised register: identity and physical addresses (117-119). *)
Definition entry := (nat * list Z)%type.
Definition own_entries (chain : list level) (regs : list mreg) : list entry :=
  flat_map (fun r => if r_unmapped r then []
                     else [(r_id r, get_physical_addresses chain (r_off r) 0 (r_bytes r))])
           regs.
(** 108-161: submaps first, then the map's own registers; [up] is the chain
    above the map. *)
Fixpoint entries (up : list level) (m : rmap) : list entry :=
  match m with
  | RMap lv subs regs =>
      flat_map (entries (lv :: up)) subs ++ own_entries (lv :: up) regs
  end.

(** The dictionaries of the root map (279-282). *)
Record lookup_tab := Tab { by_off : Z -> option nat; by_off_wo : Z -> option nat }.
Definition setd {B} (f : Z -> B) (a : Z) (v : B) : Z -> B :=
  fun b => if b =? a then v else f b.

(** 121-148 for one address. [acc] gives Xget_fields_accessX of a register; the
    model takes it not to depend on the map asking. The boolean tells whether
    the collision warning was issued. *)
Definition enter_addr (acc : nat -> racc) (r : nat) (tb : lookup_tab * list Z) (a : Z)
  : lookup_tab * list Z :=
  let '(t, warn) := tb in
  match by_off t a with
  | Some r2 =>
      match acc r, acc r2 with
      | ARO, AWO => (Tab (setd (by_off t) a (Some r)) (setd (by_off_wo t) a (Some r2)), warn)
      | AWO, ARO => (Tab (by_off t) (setd (by_off_wo t) a (Some r)), warn)
      | _, _ => (t, warn ++ [a])
      end
  | None => (Tab (setd (by_off t) a (Some r)) (by_off_wo t), warn)
  end.
Definition enter (acc : nat -> racc) (tb : lookup_tab * list Z) (e : entry)
  : lookup_tab * list Z :=
  fold_left (enter_addr acc (fst e)) (snd e) tb.
Definition no_tab : lookup_tab := Tab (fun _ => None) (fun _ => None).
Definition init_map (acc : nat -> racc) (m : rmap) : lookup_tab * list Z :=
  fold_left (enter acc) (entries [] m) (no_tab, []).

(** get_reg_by_offset, 1186-1222; [locked] is is_locked() of the parent block *)
Definition get_reg_by_offset (locked : bool) (t : lookup_tab) (offset : Z) (read : bool)
  : option nat :=
  if negb locked then None
  else if negb read then
    match by_off_wo t offset with Some r => Some r | None => by_off t offset end
  else by_off t offset.

(** ** m_set_reg_offset, 645-738, of a register in a locked block. The flag
    [unmapped] is compared with [is False] and [is True]: the integers 0 and 1
    are neither. *)
Inductive pyflag := PInt (z : Z) | PFalse | PTrue.
Record rinfo := RInfo { i_off : Z; i_unmapped : pyflag; i_addr : list Z }.
Definition is_false (f : pyflag) : bool := match f with PFalse => true | _ => false end.
Definition is_true (f : pyflag) : bool := match f with PTrue => true | _ => false end.
Definition truthy (f : pyflag) : bool :=
  match f with PInt z => negb (z =? 0) | PFalse => false | PTrue => true end.

(** 673-685; [None] is the KeyError of deleting an absent entry *)
Definition leave_addr (r : nat) (t : lookup_tab) (a : Z) : option lookup_tab :=
  match by_off_wo t a with
  | None => match by_off t a with
            | None => None
            | Some _ => Some (Tab (setd (by_off t) a None) (by_off_wo t))
            end
  | Some w =>
      match by_off t a with
      | None => None
      | Some r2 =>
          let bo := if Nat.eqb r2 r then setd (by_off t) a (Some w) else by_off t in
          Some (Tab bo (setd (by_off_wo t) a None))
      end
  end.
Fixpoint leave (r : nat) (t : lookup_tab) (addrs : list Z) : option lookup_tab :=
  match addrs with
  | [] => Some t
  | a :: l => match leave_addr r t a with None => None | Some t' => leave r t' l end
  end.
Definition set_reg_offset (acc : nat -> racc) (chain : list level) (n_bytes : Z)
    (r : nat) (info : rinfo) (t : lookup_tab) (offset : Z) (unmapped : pyflag)
  : option (lookup_tab * rinfo * list Z) :=
  match (if is_false (i_unmapped info) then leave r t (i_addr info) else Some t) with
  | None => None
  | Some t1 =>
      let '(t2, warn, addrs) :=
        if truthy unmapped then (t1, [], i_addr info)
        else
          let addrs := get_physical_addresses chain offset 0 n_bytes in
          let '(t2, warn) := fold_left (enter_addr acc r) addrs (t1, []) in
          (t2, warn, addrs) in
      let info' :=
        if is_true unmapped then RInfo (-1) (PInt 1) addrs
        else RInfo offset (PInt 0) addrs in
      Some (t2, info', warn)
  end.
