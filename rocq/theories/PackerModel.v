(** Model of UVMPacker (src/uvm/base/uvm_packer.py). *)
From Coq Require Import ZArith List Bool Arith Lia.
From Verif Require Import PyList.
Import ListNotations.
Open Scope Z_scope.

(** A call returns a value, raises, or never returns. *)
Inductive res (X : Type) := Ok (x : X) | Raise | Diverge.
Arguments Ok {X} x. Arguments Raise {X}. Arguments Diverge {X}.
Definition bind {X Y} (r : res X) (f : X -> res Y) : res Y :=
  match r with Ok x => f x | Raise => Raise | Diverge => Diverge end.
Notation "'do' x <- r ; k" := (bind r (fun x => k)) (at level 200, x pattern, k at level 200).

(** uvm_packer.py:135-146: the fields that the modelled functions use.
    [use_metadata] is 0 (its branches are [pass] in the code). *)
Record pk := Pk { be : bool; count : Z; m_bits : Z; psize : Z }.

(** Number of digits of [bin(value)] without the prefix, for value >= 0. *)
Definition num_bits (v : Z) : Z :=
  match v with Zpos p => Zpos (Pos.size p) | _ => 1 end.

(** The [while value:] loop of flip_bit_order (uvm_packer.py:736-738), literally,
    with fuel. *)
Fixpoint flip_while (fuel : nat) (value flipped : Z) : option Z :=
  match fuel with
  | O => None
  | S fuel =>
      if value =? 0 then Some flipped
      else flip_while fuel (Z.shiftr value 1) (Z.shiftl flipped 1 + Z.land value 1)
  end.

(** The same loop by recursion on the binary digits of a positive value;
    [flip_while_pos] in PackerProofs.v shows they agree. *)
Fixpoint flip_pos (value : positive) (flipped : Z) : Z :=
  match value with
  | xH => 2 * flipped + 1
  | xO p => flip_pos p (2 * flipped)
  | xI p => flip_pos p (2 * flipped + 1)
  end.

(** uvm_packer.py:733-747. A negative value never reaches 0 by [>> 1]
    ([flip_while_neg]). *)
Definition flip_bit_order (value size : Z) : res Z :=
  match value with
  | Zneg _ => Diverge
  | _ =>
      let flipped := match value with Zpos p => flip_pos p 0 | _ => 0 end in
      if size =? -1 then Ok flipped
      else
        let rem_bits := size - num_bits value in
        if 0 <=? rem_bits then Ok (Z.shiftl flipped rem_bits) else Raise
  end.

(** uvm_packer.py:155-163 and 172-180 (same body) *)
Definition pack_field_int (p : pk) (value size : Z) : res pk :=
  do v <- (if be p then flip_bit_order value size else Ok value);
  Ok (Pk (be p) (count p + size) (Z.lor (m_bits p) (Z.shiftl v (count p))) (psize p)).

(** uvm_packer.py:197-214 (width 8) and 245-263 (width 32): the element loop.
    [value] is the whole array; [rest] are the indices still to visit. *)
Fixpoint pack_arr_loop (w : Z) (value : list Z) (rest : list nat) (p : pk) : res pk :=
  match rest with
  | [] => Ok p
  | i :: rest =>
      do v <- (if be p
               then match nth_error value (length value - 1 - i) with
                    | Some x => flip_bit_order x w | None => Raise end
               else match nth_error value i with Some x => Ok x | None => Raise end);
      pack_arr_loop w value rest
        (Pk (be p) (count p + w) (Z.lor (m_bits p) (Z.shiftl v (count p))) (psize p))
  end.
Definition pack_arr (w : Z) (p : pk) (value : list Z) (size : Z) : res pk :=
  let max_size := zlen value * w in
  let size := if size <? 0 then max_size else size in
  if max_size <? size then Ok p      (* error reported, nothing packed *)
  else pack_arr_loop w value (seq 0 (length value)) p.
Definition pack_bytes := pack_arr 8.
Definition pack_ints := pack_arr 32.

(** uvm_packer.py:277-287, the string given by its encoded bytes;
    [int(hex, 16)] of the empty string raises ValueError. *)
Definition bytes_num (l : list Z) : Z := fold_left (fun acc b => acc * 256 + b) l 0.
Definition pack_string (p : pk) (bytes : list Z) : res pk :=
  match bytes with
  | [] => Raise
  | _ =>
      do v <- (if be p then flip_bit_order (bytes_num bytes) (-1) else Ok (bytes_num bytes));
      Ok (Pk (be p) (count p + 8 * zlen bytes) (Z.lor (m_bits p) (Z.shiftl v (count p))) (psize p))
  end.

(** uvm_packer.py:718-725; the report is not modelled. *)
Definition enough_bits (p : pk) (needed : Z) : bool := negb (psize p - count p <? needed).

(** uvm_packer.py:409-426 *)
Definition zrange (n : Z) : list Z := map Z.of_nat (seq 0 (Z.to_nat n)).
Definition unpack_field_int (p : pk) (size : Z) : res (pk * Z) :=
  let '(p', acc) :=
    if enough_bits p size then
      let c := count p + size in
      (Pk (be p) c (m_bits p) (psize p),
       fold_left (fun acc i =>
         let bit_sel := if be p then c - i - 1 else c - size + i in
         Z.lor acc (Z.land (m_bits p) (Z.shiftl 1 bit_sel))) (zrange size) 0)
    else (p, 0) in
  let v := Z.shiftr acc (count p) in
  do v <- (if be p then flip_bit_order v size else Ok v);
  Ok (p', v).

(** uvm_packer.py:441-461 (width 8) and 492-512 (width 32). [value] is the
    caller's array, of which only the length matters unless too few bits
    remain. *)
Fixpoint unpack_arr_loop (w : Z) (p : pk) (rest : list nat) (value : list Z) : res (list Z) :=
  match rest with
  | [] => Ok value
  | b :: rest =>
      let v := Z.land (Z.shiftr (m_bits p) (Z.of_nat b * w)) (Z.ones w) in
      if be p then
        do v <- flip_bit_order v w;
        unpack_arr_loop w p rest (set_nth value (length value - 1 - b) v)
      else unpack_arr_loop w p rest (set_nth value b v)
  end.
Definition unpack_arr (w : Z) (p : pk) (value : list Z) (size : Z) : res (pk * list Z) :=
  let max_size := zlen value * w in
  let size := if size <? 0 then max_size else size in
  if max_size <? size then Ok (p, [])
  else if enough_bits p size then
    do l <- unpack_arr_loop w p (seq 0 (length value)) value;
    Ok (Pk (be p) (count p + size) (m_bits p) (psize p), l)
  else Ok (p, value).
Definition unpack_bytes := unpack_arr 8.
Definition unpack_ints := unpack_arr 32.

(** uvm_packer.py:523-554; returns the byte array before [decode()]. [fuel]
    bounds the while loop; every iteration consumes 8 bits, so
    [S (psize - count)] is enough. *)
Fixpoint ustr_loop (fuel : nat) (p : pk) (num_chars : Z) (null_term : bool) (i : Z)
    (acc : list Z) : option (pk * list Z) :=
  match fuel with
  | O => None
  | S fuel =>
      let curr := Z.land (Z.shiftr (m_bits p) (count p)) 255 in
      if enough_bits p 8 && (negb (curr =? 0) || negb null_term)
         && ((i <? num_chars) || null_term)
      then ustr_loop fuel (Pk (be p) (count p + 8) (m_bits p) (psize p)) num_chars null_term
             (i + 1) (curr :: acc)
      else Some (p, acc)
  end.
Definition unpack_string (p : pk) (num_chars : Z) : option (pk * list Z) :=
  match ustr_loop (S (Z.to_nat (psize p - count p))) p num_chars (num_chars =? -1) 0 [] with
  | Some (p, l) =>
      Some (if enough_bits p 8 then Pk (be p) (count p + 8) (m_bits p) (psize p) else p, l)
  | None => None
  end.

(** uvm_packer.py:638-641; the index error is only reported. *)
Definition get_bit (p : pk) (i : Z) : Z := Z.land (Z.shiftr (m_bits p) i) 1.

(** uvm_packer.py:652-684, width 8 / 32; [int((size+w-1)/w)] is read as an exact
    division (floats are exact below 2**53). *)
Definition get_words (w : Z) (p : pk) : list (res Z) :=
  let sz := (psize p + (w - 1)) / w in
  map (fun i =>
    let v := if negb (i =? sz - 1) || (psize p mod w =? 0)
             then Z.land (Z.shiftr (m_bits p) (i * w)) (Z.ones w)
             else Z.land (Z.shiftr (m_bits p) (i * w)) (Z.shiftr (Z.ones w) (w - psize p mod w)) in
    if be p then flip_bit_order v w else Ok v) (zrange sz).
Definition get_bytes := get_words 8.
Definition get_ints := get_words 32.

(** uvm_packer.py:688-701, for a non-negative bit stream *)
Definition put_bits (p : pk) (bits : Z) : pk := Pk (be p) 0 bits (num_bits bits).

(** uvm_packer.py:707-709 and 728-731 *)
Definition set_packed_size (p : pk) : pk := Pk (be p) 0 (m_bits p) (count p).
Definition reset (p : pk) : pk := Pk (be p) 0 0 0.

(** uvm_packer.py:954-960, module-level get_bits(bits, count, nbits): the slice
    [count +: nbits]. *)
Definition slice_bits (bits cnt nbits : Z) : Z :=
  fold_left (fun val idx =>
    let i := cnt + idx in
    Z.lor val (Z.land (Z.shiftl 1 (nbits - idx)) (Z.shiftr bits (i - idx)))) (zrange (nbits + 1)) 0.

(** Sequences of field calls. *)
Fixpoint pack_fields (p : pk) (fs : list (Z * Z)) : res pk :=
  match fs with
  | [] => Ok p
  | (size, v) :: fs => do p' <- pack_field_int p v size; pack_fields p' fs
  end.
Fixpoint unpack_fields (p : pk) (sizes : list Z) : res (pk * list Z) :=
  match sizes with
  | [] => Ok (p, [])
  | s :: sizes =>
      do (p1, v) <- unpack_field_int p s;
      do (p2, vs) <- unpack_fields p1 sizes;
      Ok (p2, v :: vs)
  end.
