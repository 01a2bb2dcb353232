(** Model of string helpers: src/uvm/base/uvm_globals.py 265-275 and
    src/uvm/base/uvm_misc.py 46-218. Strings are lists of character codes. *)
From Coq Require Import ZArith List Bool Arith.
Import ListNotations.
Open Scope Z_scope.

Definition str := list nat.

(** uvm_globals.py 265-275, from the bytes of the string. *)
Fixpoint stb (result shift : Z) (bytes : list Z) : Z :=
  match bytes with
  | [] => result
  | bb :: r => stb (Z.lor (Z.shiftl result shift) bb) (shift + 8) r
  end.
Definition string_to_bits (bytes : list Z) : Z := stb 0 0 bytes.

(** uvm_misc.py 190-200 *)
Definition dot := 46%nat.  Definition lbr := 91%nat.  Definition rbr := 93%nat.
Definition bracket_match (sep : nat) : option nat :=
  match sep with
  | 91 => Some 93 | 40 => Some 41 | 60 => Some 62 | 123 => Some 125 | _ => None
  end%nat.

(** 161-164: does the separator, used as a regular expression, occur? None: re.compile
    raises. "." is escaped. *)
Definition search (sep : nat) (name : str) : option bool :=
  match sep with
  | 91 | 40 | 42 | 43 | 63 | 92 => None            (* [ ( * + ? \ *)
  | 94 | 36 | 124 => Some true                      (* ^ $ | *)
  | _ => Some (existsb (Nat.eqb sep) name)
  end%nat.

(** 168-174 on the reversed name: at [c :: r], pos is the length of r; the loop stops
    at pos 1. *)
Fixpoint scan (sep : nat) (bm : option nat) (r : list nat) (b : Z) : nat :=
  match r with
  | c :: ((_ :: r2) as r1) =>
      if (match bm with Some m => Nat.eqb c m | None => false end)
      then match r2 with [] => length r1 | _ => scan sep bm r1 (b + 1) end
      else if Nat.eqb c sep
      then if (b - 1 =? 0) || (match bm with None => true | _ => false end)
           then length r1
           else match r2 with [] => length r1 | _ => scan sep bm r1 (b - 1) end
      else match r2 with [] => length r1 | _ => scan sep bm r1 b end
  | _ => 0%nat
  end.

Definition slice (a b : nat) (s : str) : str := firstn (b - a) (skipn a s).

Inductive res := RStr (s : str) | RExn.

(** 142-187 *)
Definition leaf_scope (name : str) (sep : nat) : res :=
  let go bm :=
    let pos := scan sep bm (rev name) 0 in
    match pos with
    | O => RStr name
    | _ =>
        if Nat.eqb sep dot then RStr (slice (pos + 1) (length name) name)
        else
          let pos1 := (pos - 1)%nat in
          let pos2 := if Nat.eqb (nth (pos1 + 1) name 0%nat) sep then (pos1 + 1)%nat else pos1 in
          RStr (slice (pos2 + 1) (length name - 1) name)
    end in
  let nomatch :=
    match search sep name with
    | None => RExn
    | Some false => RStr name
    | Some true => go None
    end in
  match bracket_match sep with
  | None => nomatch
  | Some m =>
      match rev name with
      | [] => RExn                                  (* 157: full_name[-1] *)
      | c :: _ => if Nat.eqb c m then go (Some m) else nomatch
      end
  end.

(** 46-65; the loop 57-60 on the reversed argument, giving i or, below 0, None. *)
Definition wild (c : nat) : bool := Nat.eqb c 42 || Nat.eqb c 63.
Fixpoint back (r : list nat) : option nat :=
  match r with
  | [] => None
  | c :: r' =>
      match r' with
      | [] => Some O
      | _ => if Nat.eqb c lbr then Some (length r') else if wild c then None else back r'
      end
  end.
Definition array_index (arg : str) : res :=
  match rev arg with
  | [] => RExn                                      (* arg[-1] *)
  | c :: _ =>
      let i := if Nat.eqb c rbr then back (rev arg) else Some (length arg - 1)%nat in
      match i with
      | Some (S i') => RStr (slice (S i' + 1) (length arg - 1) arg)
      | _ => RStr []
      end
  end.

(** 68-119, 203-218: what is printed: a prefix and a number in a base. *)
Inductive radix := Bin | Oct | Unsigned | Dec | Hex | NoRadix.
Inductive text := Text (prefix : str) (base : Z) (number : Z).
Definition num_with_radix (r : radix) (prefix : str) (v : Z) : text :=
  match r with
  | Bin => Text prefix 2 v
  | Hex => Text prefix 16 v
  | _ => Text prefix 10 v
  end.
Definition is_dec (r : radix) : bool := match r with Dec => true | _ => false end.
(** 68-92; size at least 1. *)
Definition bitstream_to_string (v size : Z) (r : radix) (prefix : str) : text :=
  if is_dec r && negb (Z.shiftr v (size - 1) =? 0) then Text [] 10 v
  else num_with_radix r prefix (Z.land v (Z.shiftl 1 size - 1)).
(** 95-119 *)
Definition integral_to_string (v size : Z) (r : radix) (prefix : str) : text :=
  if is_dec r && (Z.shiftr v (size - 1) =? 1) then Text [] 10 v
  else num_with_radix r prefix (Z.land v (Z.shiftl 1 size - 1)).
