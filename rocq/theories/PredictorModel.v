(** Model of src/uvm/reg/uvm_reg_predictor.py, write() 143-247 and check_phase() 253-264.

    A transaction is what adapter.bus2reg makes of it (153): the model starts there.
    Not modelled: coverage sampling (XsampleX, 217-223), the pre_predict hook (215),
    message texts and indirect registers (193-195). *)
From Coq Require Import ZArith List Bool Arith.
From Verif Require Import Prelude RegFieldModel RegModel RegMapModel.
Import ListNotations.
Open Scope Z_scope.

Inductive rwkind := KRead | KWrite.
Definition is_read (k : rwkind) : bool := match k with KRead => true | KWrite => false end.
(** UVMRegBusOp, uvm_reg_item.py 236-260; byte_en is -1 unless the adapter sets it (152) *)
Record xfer := Xf { x_kind : rwkind; x_addr : Z; x_data : Z; x_be : Z }.

(** UVMPredictS 45-49: the keys of its dict, the kind and the value of its item *)
Record pinfo := PInfo { p_addr : list Z; p_kind : rwkind; p_value : Z }.

(** What the predictor asks of its map and of the registers' local maps:
    get_reg_by_offset (157; model in RegMapModel.v), the addresses of a register (189, 197),
    get_n_bytes (200), get_check_on_read (211), the rights and the fields not compared. *)
Record cfg := Cfg {
  lookup : Z -> bool -> option nat;
  addrs : nat -> list Z;
  width : Z;
  check_on_read : nat -> bool;
  rights_of : nat -> via;
  nocheck : nat -> list bool
}.

(** m_pending (103) and the registers *)
Record predictor := Pr { pend : list (nat * pinfo); regs : nat -> reg }.

Inductive out :=
| OCollision (r : nat)                             (* 183 *)
| OMismatch (r : nat)                              (* do_check's error *)
| OPublished (r : nat) (k : rwkind) (v : Z)        (* reg_ap.write, 236 *)
| ORaised (r : nat)                                (* the exception of do_predict leaves write() *)
| OInternal (r : nat)                              (* 242 *)
| ONotForMe.                                       (* 245 *)

(** UVMPool: exists, [], delete, uvm_pool.py 109-117, 196-216 *)
Fixpoint get_p (r : nat) (l : list (nat * pinfo)) : option pinfo :=
  match l with [] => None | (k, i) :: l' => if Nat.eqb k r then Some i else get_p r l' end.
Fixpoint set_p (r : nat) (i : pinfo) (l : list (nat * pinfo)) : list (nat * pinfo) :=
  match l with
  | [] => [(r, i)]
  | (k, j) :: l' => if Nat.eqb k r then (k, i) :: l' else (k, j) :: set_p r i l'
  end.
Fixpoint del_p (r : nat) (l : list (nat * pinfo)) : list (nat * pinfo) :=
  match l with [] => [] | (k, j) :: l' => if Nat.eqb k r then l' else (k, j) :: del_p r l' end.

(** 197-198: the first index of the address *)
Fixpoint index_of (a : Z) (l : list Z) : option nat :=
  match l with
  | [] => None
  | b :: l' => if a =? b then Some O else match index_of a l' with Some i => Some (S i) | None => None end
  end.

Definition pk (k : rwkind) : pkind := match k with KRead => PRead | KWrite => PWrite end.

(** 143-247 *)
Definition write (c : cfg) (y : predictor) (x : xfer) : predictor * list out :=
  match lookup c (x_addr x) (is_read (x_kind x)) with
  | None => (y, [ONotForMe])
  | Some r =>
      let info := match get_p r (pend y) with Some i => i | None => PInfo [] (x_kind x) 0 end in
      let pend1 := set_p r info (pend y) in
      let coll := existsb (Z.eqb (x_addr x)) (p_addr info) in
      let o1 := if coll then [OCollision r] else [] in
      let pend2 := if coll then del_p r pend1 else pend1 in
      match index_of (x_addr x) (addrs c r) with
      | None => (Pr pend2 (regs y), o1 ++ [OInternal r])
      | Some i =>
          let v := Z.lor (p_value info) (Z.shiftl (x_data x) (Z.of_nat i * width c * 8)) in
          let seen := if coll then p_addr info else p_addr info ++ [x_addr x] in
          (* predict_info is changed in place; after 186 it is not in m_pending any more *)
          let pend3 := if coll then pend2 else set_p r (PInfo seen (p_kind info) v) pend2 in
          if Nat.eqb (length seen) (length (addrs c r)) then
            let rg := regs y r in
            let o2 :=
              if is_read (p_kind info) && check_on_read c r then
                if do_check (combine (fields rg) (nocheck c r)) (reg_get_mirrored rg) v (rights_of c r)
                then [] else [OMismatch r]
              else [] in
            let '(rg', res) := reg_predict rg v (pk (p_kind info)) FrontOrPredict (rights_of c r) (x_be x) in
            match res with
            | PRaised => (Pr pend3 (upd (regs y) r rg'), o1 ++ o2 ++ [ORaised r])
            | POk _ => (Pr (del_p r pend3) (upd (regs y) r rg'), o1 ++ o2 ++ [OPublished r (p_kind info) v])
            end
          else (Pr pend3 (regs y), o1)
      end
  end.

(** 253-264: the registers named in the error, none if there is no error *)
Definition check_phase (y : predictor) : list nat := map fst (pend y).
