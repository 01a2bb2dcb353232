(** Model of the built-in register test sequences in src/uvm/reg/sequences:
    uvm_reg_bit_bash_seq.py (69-194 for one register, 247-275 for a block), the reset test of
    uvm_reg_hw_reset_seq.py 98-149 and the block loops of uvm_reg_access_seq.py (do_block),
    uvm_mem_walk_seq.py, uvm_mem_access_seq.py, which are the same.

    Registers and fields are those of RegModel.v. The design is a device with a state and
    writes and reads through a map (a [via]); the bus between is left out (RegMapModel.v), so
    a write passes the value on and returns a status. Front door, automatic prediction, no
    callbacks. Not modelled: the resources that exclude a single register (its body returns at
    once), messages other than errors and warnings. *)
From Coq Require Import ZArith List Bool Arith.
From Verif Require Import RegFieldModel RegModel.
Import ListNotations.
Open Scope Z_scope.

Inductive berr :=
| BWrite (k : Z)                 (* 173-176: status of the write *)
| BRead (k : Z)                  (* 184-187 *)
| BMismatch (k val exp : Z)      (* 190-194 *)
| BNoBits.                       (* 149-151, a warning *)

Section Bash.
Context {D : Type}.
Variables (wr : D -> via -> Z -> D * bool) (rd : D -> via -> D * Z * bool).
Variable W : Z.                  (* UVM_REG_DATA_WIDTH *)

(** 105-131: which bits are not tested; [None]: IndexError, 125, when a field ends beyond [W].
    The loop 120-122 moves on to the position of the field. *)
Definition dont_care (nocheck : bool) (f : field) (m : via) : bool :=
  nocheck || is_in (get_access f m) [WO; WOC; WOS; WO1; NOACCESS].
Fixpoint scan (fs : list (field * bool)) (m : via) (next : Z) (dc : Z -> bool) : option (Z -> bool) :=
  match fs with
  | [] => Some dc
  | (f, nc) :: fs =>
      let a := Z.max next (lsb f) in
      let b := a + size f in
      if W <? b then None
      else scan fs m b (fun i => if (a <=? i) && (i <? b) then dont_care nc f m else dc i)
  end.
(** 142-144 *)
Definition mask_of (dc : Z -> bool) : Z :=
  fold_left (fun acc i => Z.lor acc (Z.shiftl (Z.b2z (dc (Z.of_nat i))) (Z.of_nat i))) (seq 0 (Z.to_nat W)) 0.

(** 163-194, one turn of the loop. A status that is not OK is reported; the prediction is
    made all the same (uvm_reg.py 1512-1519, 1716-1718). *)
Definition bash_once (r : reg) (d : D) (m : via) (k dcm : Z) : reg * D * list berr :=
  let val := Z.lxor (reg_get r) (Z.shiftl 1 k) in
  let '(bv, r1) := reg_write r val m in
  let '(d1, s1) := wr d m bv in
  let exp := Z.land (reg_get r1) (Z.lnot dcm) in
  let '(d2, v, s2) := rd d1 m in
  let r2 := reg_read r1 v m in
  let v := Z.land v (Z.lnot dcm) in
  (r2, d2, (if s1 then [] else [BWrite k]) ++ (if s2 then [] else [BRead k]) ++
           (if v =? exp then [] else [BMismatch k v exp])).
Definition bash_bit (r : reg) (d : D) (m : via) (k dcm : Z) : reg * D * list berr :=
  let '(r1, d1, e1) := bash_once r d m k dcm in
  let '(r2, d2, e2) := bash_once r1 d1 m k dcm in
  (r2, d2, e1 ++ e2).
(** 136-147; the boolean tells of an IndexError (dc_mask[k], 140) *)
Fixpoint bash_bits (n : nat) (k : Z) (r : reg) (d : D) (m : via) (dc : Z -> bool) : reg * D * list berr * bool :=
  match n with
  | O => (r, d, [], false)
  | S n =>
      if W <=? k then (r, d, [], true)
      else if dc k then bash_bits n (k + 1) r d m dc
      else
        let '(r1, d1, e1) := bash_bit r d m k (mask_of dc) in
        let '(r2, d2, e2, x) := bash_bits n (k + 1) r1 d1 m dc in
        (r2, d2, e1 ++ e2, x)
  end.
(** uvm_reg.py 471-478 *)
Definition n_bytes (r : reg) : Z := Z.quot (n_bits r - 1) 8 + 1.
Definition bash_map (r : reg) (nc : list bool) (d : D) (m : via) : reg * D * list berr * bool :=
  match scan (combine (fields r) nc) m 0 (fun _ => false) with
  | None => (r, d, [], true)
  | Some dc =>
      let n := Z.to_nat (n_bytes r * 8) in
      let '(r1, d1, e1, x) := bash_bits n 0 r d m dc in
      (r1, d1, e1 ++ (if x then [] else if forallb (fun i => dc (Z.of_nat i)) (seq 0 n) then [BNoBits] else []), x)
  end.
(** 69-151; [nc]: for every field, whether get_compare() is UVM_NO_CHECK; the last boolean
    tells of an exception *)
Fixpoint bash (r : reg) (nc : list bool) (d : D) (ms : list via) : reg * D * list berr * bool :=
  match ms with
  | [] => (r, d, [], false)
  | m :: ms =>
      let '(r1, d1, e1, x) := bash_map r nc d m in
      if x then (r1, d1, e1, true)
      else let '(r2, d2, e2, x2) := bash r1 nc d1 ms in (r2, d2, e1 ++ e2, x2)
  end.

(** The reset test of one register: mirror() with UVM_CHECK, uvm_reg.py 1111-1144. A read status
    that is not OK does not prevent the comparison (1139 compares a list with a number). *)
Inductive herr := HCheck | HStatus.
Definition mirror_check (r : reg) (nc : list bool) (d : D) (m : via) : reg * D * list herr :=
  let exp := reg_get_mirrored r in
  let '(d1, v, s) := rd d m in
  (reg_read r v m, d1,
   (if do_check (combine (fields r) nc) exp v m then [] else [HCheck]) ++ (if s then [] else [HStatus])).
End Bash.

(** ** Going through the blocks *)
(** [off]: a resource excludes the block; [bmaps]: for every map of the block whether it has
    submaps. *)
Inductive blk := Blk (bid : nat) (off : bool) (bmaps : list bool) (subs : list blk).
Definition bid (b : blk) : nat := let 'Blk i _ _ _ := b in i.
Definition off (b : blk) : bool := let 'Blk _ o _ _ := b in o.
Definition bmaps (b : blk) : list bool := let 'Blk _ _ m _ := b in m.
Definition subs (b : blk) : list blk := let 'Blk _ _ _ s := b in s.
(** uvm_reg_block.py 447-452, hierarchical by default *)
Fixpoint get_blocks (b : blk) : list blk :=
  let 'Blk _ _ _ s := b in
  (fix go (l : list blk) : list blk := match l with [] => [] | c :: l => c :: get_blocks c ++ go l end) s.
(** Bit bash 247-275 and the others: the block's own registers (UVM_NO_HIER), then do_block() for
    every block get_blocks() gives. The result lists the blocks whose registers are tested;
    [None]: out of fuel. *)
Fixpoint each (f : blk -> option (list nat)) (l : list blk) : option (list nat) :=
  match l with
  | [] => Some []
  | b :: l => match f b, each f l with Some x, Some y => Some (x ++ y) | _, _ => None end
  end.
Fixpoint do_block (fuel : nat) (b : blk) : option (list nat) :=
  match fuel with
  | O => None
  | S fuel => if off b then Some [] else option_map (cons (bid b)) (each (do_block fuel) (get_blocks b))
  end.
(** uvm_reg_hw_reset_seq.py 98-149. sub_maps is made once (100) and get_submaps() appends, so it
    stays non-empty (112-114); the child blocks are visited in the loop over the maps (145-149). *)
Fixpoint hw_maps (f : option (list nat)) (i : nat) (seen : bool) (ms : list bool) : option (list nat) :=
  match ms with
  | [] => Some []
  | has :: ms =>
      let seen := seen || has in
      if seen then hw_maps f i seen ms
      else match f, hw_maps f i seen ms with Some x, Some y => Some (i :: x ++ y) | _, _ => None end
  end.
Fixpoint hw_block (fuel : nat) (b : blk) : option (list nat) :=
  match fuel with
  | O => None
  | S fuel => if off b then Some [] else hw_maps (each (hw_block fuel) (get_blocks b)) (bid b) false (bmaps b)
  end.
