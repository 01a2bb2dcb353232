(** Model of src/uvm/reg/uvm_reg_fifo.py, UVMRegFIFO, on top of the register and field
    models, with the operations it inherits from src/uvm/reg/uvm_reg.py: write (852-915,
    do_write 1389-1555) and read (918-965, do_read 1579-1757), split where they suspend.

    Simplified: no user callbacks; byte enables are all ones; coverage sampling and the
    register's own check on read are left out; the lock (XatomicX, RegAtomicModel.v) is
    modelled by admitting one bus operation at a time; at most one update() at a time. *)
From Coq Require Import ZArith List Bool Arith.
From Verif Require Import Prelude RegFieldModel RegModel.
Import ListNotations.
Local Open Scope Z_scope.

(** The bus operation that holds the lock: a write before pre_write or on the bus, or a
    read on the bus; for writes, whether update() called it. *)
Inductive busop := WrPre (v : Z) (by_update : bool) | WrBus (v : Z) (by_update : bool) | RdBus.

(** 70-74 __init__, 82-84 build; [check]: the compare policy of the field (93-94). *)
Record rfifo := RFifo {
  rf : reg;
  cap : Z;
  fq : list Z;
  set_cnt : Z;
  in_prog : bool;         (* m_update_in_progress *)
  upd_i : option Z;       (* update() is running; its [i] *)
  cur : option busop;
  check : bool
}.
Definition rfifo0 (size n_bits : Z) (chk : bool) : rfifo :=
  let r := new_reg n_bits in
  RFifo (with_fields r [configure (RegModel.n_bits r) 0 RW false 0 true]) size [] 0 false None None chk.

Inductive rfout :=
| GetRet (v : Z) | GetRaise                       (* get() *)
| NeedsUpdate | FifoFull                          (* errors of pre_write *)
| BusWrite (v : Z) | BusRead                      (* sent to the DUT *)
| WriteRet (ok : bool) | ReadRet (ok : bool)
| MirrorMismatch (observed expected : Z)          (* the warning of do_predict *)
| UpdateRet | UpdateRaise.

Inductive rflab :=
| SetV (v : Z) | GetV
| Predict (v : Z) (k : pkind) (p : path) (m : via)  (* predict(), or a predictor's do_predict *)
| Randomize
| WriteCall (v : Z) | ReadCall
| PreWrite                                        (* the write goes on after line 1396 *)
| BusDone (v : Z) (ok : bool) (auto : bool) (m : via)  (* the bus operation ends; v: value read *)
| UpdateCall | UpdateNext.

(** self.value.value *)
Definition value_value (s : rfifo) : Z := match fields (rf s) with f :: _ => desired f | [] => 0 end.
Definition with_q (s : rfifo) (r : reg) (q : list Z) (n : Z) : rfifo :=
  RFifo r (cap s) q n (in_prog s) (upd_i s) (cur s) (check s).
Definition with_cur (s : rfifo) (b : bool) (c : option busop) : rfifo :=
  RFifo (Reg (n_bits (rf s)) (n_used (rf s)) (locked (rf s)) b (fields (rf s))) (cap s) (fq s) (set_cnt s) (in_prog s) (upd_i s) c (check s).
Definition with_upd (s : rfifo) (n : Z) (ip : bool) (i : option Z) : rfifo :=
  RFifo (rf s) (cap s) (fq s) n ip i (cur s) (check s).
Definition len (s : rfifo) : Z := Z.of_nat (length (fq s)).

(** 148-155 set *)
Definition fifo_set (s : rfifo) (v : Z) : rfifo :=
  let v := Z.land v (Z.shiftl 1 (n_bits (rf s)) - 1) in
  if len s =? cap s then s
  else
    let r := reg_set (rf s) v in
    let s := with_q s r (fq s) (set_cnt s + 1) in
    with_q s r (fq s ++ [value_value s]) (set_cnt s).
(** 197-200 get *)
Definition fifo_get (s : rfifo) : list rfout := match fq s with v :: _ => [GetRet v] | [] => [GetRaise] end.
(** 222-240 do_predict; [ok]: rw.status is not UVM_NOT_OK. *)
Definition fifo_predict (s : rfifo) (v : Z) (k : pkind) (p : path) (m : via) (ok : bool) : rfifo * list rfout :=
  (* uvm_reg.py 1760-1779 *)
  let '(r, x) := if busy (rf s) && is_direct k then (rf s, POk false)
                 else let '(fs, x) := predict_fields (busy (rf s)) (fields (rf s)) v k p m (-1) ok in (with_fields (rf s) fs, x) in
  let s := with_q s r (fq s) (set_cnt s) in
  match x with
  | PRaised | POk false => (s, [])
  | POk true =>
      match k with
      | PWrite | PDirect =>
          if negb (len s =? cap s) && negb (in_prog s) then (with_q s r (fq s ++ [value_value s]) (set_cnt s), []) else (s, [])
      | PRead =>
          let value := Z.land v (Z.shiftl 1 (n_bits (rf s)) - 1) in
          match fq s with
          | [] => (s, [])
          | mirror :: q => (with_q s r q (set_cnt s), if check s && negb (mirror =? value) then [MirrorMismatch value mirror] else [])
          end
      end
  end.
(** 253-262 pre_write *)
Definition pre_write (s : rfifo) : option rfout :=
  if (0 <? set_cnt s) && negb (in_prog s) then Some NeedsUpdate
  else if (cap s <=? len s) && negb (in_prog s) then Some FifoFull
  else None.
(** Back in the caller of write: 173-177 for update(). *)
Definition write_returns (s : rfifo) (by_update ok : bool) : rfifo * list rfout :=
  let s := with_cur s false None in
  if by_update then
    match upd_i s with
    | Some i => (with_upd s (set_cnt s - 1) (in_prog s) (Some (i + 1)), [])
    | None => (s, [])
    end
  else (s, [WriteRet ok]).

(** self.fifo[i], for i >= 0; None: IndexError. *)
Definition nth_q (s : rfifo) (i : Z) : option Z := nth_error (fq s) (Z.to_nat i).

Definition rfstep (s : rfifo) (l : rflab) : rfifo * list rfout :=
  match l with
  | SetV v => (fifo_set s v, [])
  | GetV => (s, fifo_get s)
  | Predict v k p m => fifo_predict s v k p m true
  (* 279-280 post_randomize; the value of the field does not matter before the next
     set or prediction *)
  | Randomize => (with_upd s 0 (in_prog s) (upd_i s), [])
  | WriteCall v =>
      match cur s with
      | Some _ => (s, [])
      | None => (with_cur (fifo_set s v) false (Some (WrPre v false)), [])   (* 897-898 *)
      end
  | PreWrite =>
      match cur s with
      | Some (WrPre v u) =>
          match pre_write s with
          | Some e => let '(s, o) := write_returns s u false in (s, e :: o)      (* 1450-1453 *)
          | None =>
              let bv := pre_write_value (rf s) v in
              (with_cur s true (Some (WrBus bv u)), [BusWrite bv])               (* 1490-1505 *)
          end
      | _ => (s, [])
      end
  | ReadCall =>
      match cur s with
      | Some _ => (s, [])
      | None =>
          match fq s with
          | [] => (s, [ReadRet false])                                           (* 271-275, 1626-1628 *)
          | _ => (with_cur s true (Some RdBus), [BusRead])
          end
      end
  | BusDone v ok auto m =>
      match cur s with
      | Some (WrBus bv u) =>
          let s := with_cur s false (cur s) in                                   (* 1507 *)
          let '(s, o) := if auto then fifo_predict s bv PWrite FrontOrPredict m ok else (s, []) in
          let '(s, o') := write_returns s u ok in (s, o ++ o')
      | Some RdBus =>
          let s := with_cur s false (cur s) in                                   (* 1709 *)
          let '(s, o) := if auto then fifo_predict s v PRead FrontOrPredict m ok else (s, []) in
          (with_cur s false None, o ++ [ReadRet ok])
      | _ => (s, [])
      end
  | UpdateCall =>
      match upd_i s with
      | Some _ => (s, [])
      | None =>
          if (set_cnt s =? 0) || (len s =? 0) then (s, [UpdateRet])
          else (with_upd s (set_cnt s) true (Some (len s - set_cnt s)), [])
      end
  | UpdateNext =>                                                                (* 173-181 *)
      match upd_i s, cur s with
      | Some i, None =>
          if 0 <? set_cnt s then
            if 0 <=? i then
              match nth_q s i with
              | None => (with_upd s (set_cnt s) (in_prog s) None, [UpdateRaise])
              | Some v => (with_cur (fifo_set s v) false (Some (WrPre v true)), [])
              end
            else (with_upd s (set_cnt s - 1) (in_prog s) (Some (i + 1)), [])
          else (with_upd s (set_cnt s) false None, [UpdateRet])
      | _, _ => (s, [])
      end
  end.
Definition rfrun (size n_bits : Z) (chk : bool) (ls : list rflab) : rfifo * list rfout :=
  run_machine rfstep (rfifo0 size n_bits chk) ls.
