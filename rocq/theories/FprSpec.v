(** What the printout of the factory should say, from the calls alone; the newest call is the first
    of the list. *)
From Coq Require Import List Bool Arith String Ascii.
From Verif Require Import FprModel.
Import ListNotations.
Local Open Scope string_scope.

Definition inb (n : string) (l : list string) : bool := existsb (String.eqb n) l.
Definition add_new (l : list string) (n : string) : list string := if inb n l then l else l ++ [n].
(** The types registered, oldest first: an override by type registers both its types *)
Definition mentioned (o : op) : list string :=
  match o with Reg t => [t] | TypeT o t _ => [o; t] | InstT o t _ => [o; t] | TypeN _ _ _ => [] end.
Fixpoint registered (h : list op) : list string :=
  match h with [] => [] | o :: h => fold_left add_new (mentioned o) (registered h) end.

(** [stands h n]: the type that the name n stands for; [produces h n]: the name of the type that
    the type override of n produces. The first override of a name by name makes the name stand for
    the override. *)
Fixpoint stands (h : list op) (n : string) : option string :=
  match h with
  | [] => None
  | TypeN a b _ :: h =>
      if String.eqb n a && negb (String.eqb a b) && match produces h a with None => true | _ => false end
      then match stands h b with Some t => Some t | None => stands h n end else stands h n
  | o :: h => match stands h n with Some t => Some t | None => if inb n (mentioned o) then Some n else None end
  end
with produces (h : list op) (n : string) : option string :=
  match h with
  | [] => None
  | TypeT o t r :: h =>
      if String.eqb n o then match produces h n with Some x => Some (if r then t else x) | None => Some t end else produces h n
  | TypeN a b r :: h =>
      if String.eqb n a && negb (String.eqb a b)
      then match stands h b, produces h n with
           | None, p => p
           | Some t, None => Some t
           | Some t, Some x => Some (if r then b else x)
           end
      else produces h n
  | _ :: h => produces h n
  end.
(** The names with a type override, in the order in which they were first overridden *)
Definition target (o : op) : list string := match o with TypeT o _ _ => [o] | TypeN a _ _ => [a] | _ => [] end.
Fixpoint overridden (h : list op) : list string :=
  match h with
  | [] => []
  | o :: h' => fold_left add_new (filter (fun n => match produces h n with Some _ => true | None => false end) (target o)) (overridden h')
  end.
Definition type_rows (h : list op) : list (string * string) :=
  flat_map (fun n => match produces h n with Some t => [(n, t)] | None => [] end) (overridden h).

(** The instance overrides of a type: path and override, each once *)
Fixpoint inst_of (h : list op) (o : string) : list (string * string) :=
  match h with
  | [] => []
  | InstT o' t p :: h =>
      if String.eqb o o' && negb (existsb (fun r => String.eqb (fst r) p && String.eqb (snd r) t) (inst_of h o))
      then (inst_of h o ++ [(p, t)])%list else inst_of h o
  | _ :: h => inst_of h o
  end.
(** The type whose first instance override came last *)
Fixpoint newest (h : list op) : option string :=
  match h with
  | [] => None
  | InstT o _ _ :: h => match inst_of h o with [] => Some o | _ => newest h end
  | _ :: h => newest h
  end.
Definition inst_rows (h : list op) : list (string * string * string) :=
  match newest h with Some o => map (fun r => (o, fst r, snd r)) (inst_of h o) | None => [] end.

(** The types listed: those whose name stands for them and, unless all are asked for, does not
    contain "uvm_" *)
Definition contains (x s : string) : Prop := exists a b, s = a ++ x ++ b.
Fixpoint containsb (x s : string) : bool := prefix x s || match s with "" => false | String _ s => containsb x s end.
Definition listed (h : list op) (all : nat) : list string :=
  filter (fun n => match stands h n with Some t => String.eqb t n | None => false end && (Nat.leb 2 all || negb (containsb "uvm_" n))) (registered h).

(** Columns: the filler of a text in a column of width w is one short, and at most 99 long *)
Definition fill (w : nat) (a : string) : string := rep " " (Nat.min 99 (w - length a - 1)).
Definition line (w : nat) : string := rep "-" (Nat.min 99 (w - 1)).
Definition wide (n : nat) (l : list string) : nat := fold_right (fun a m => Nat.max (length a) m) n l.
Definition f1 (r : string * string * string) := fst (fst r).
Definition f2 (r : string * string * string) := snd (fst r).
Definition f3 (r : string * string * string) := snd r.
Definition inst_part (rows : list (string * string * string)) : list piece :=
  match rows with
  | [] => [T ("No instance overrides are registered with this factory" ++ nl)]
  | _ =>
      let w1 := wide 14 (map f1 rows) in let w2 := wide 13 (map f2 rows) in let w3 := wide 13 (map f3 rows) in
      T ("Instance Overrides:" ++ nl ++ nl) ::
      T ("  Requested Type" ++ fill w1 "Requested Type" ++ "  Override Path" ++ fill w2 "Override Path" ++ "  Override Type" ++ fill w3 "Override Type" ++ nl) ::
      T ("  " ++ line w1 ++ "  " ++ line w2 ++ "  " ++ line w3 ++ nl) ::
      flat_map (fun r => [T ("  " ++ f1 r ++ fill w1 (f1 r) ++ "  " ++ f2 r ++ fill w2 (f2 r)); T ("  " ++ f3 r ++ nl)]) rows
  end.
Definition type_part (irows : list (string * string * string)) (rows : list (string * string)) : list piece :=
  match rows with
  | [] => [T (nl ++ "No type overrides are registered with this factory" ++ nl)]
  | _ =>
      let w1 := wide 14 (map f1 irows ++ map fst rows)%list in let w2 := wide 13 (map f2 irows ++ map snd rows)%list in
      T (nl ++ "Type Overrides:" ++ nl ++ nl) ::
      T ("  Requested Type" ++ fill w1 "Requested Type" ++ "  Override Type" ++ fill w2 "Override Type" ++ nl) ::
      T ("  " ++ line w1 ++ "  " ++ line w2 ++ nl) ::
      map (fun r => T ("  " ++ fst r ++ fill w1 (fst r) ++ "  " ++ snd r ++ nl)) rows
  end.
Definition overrides_part (irows : list (string * string * string)) (rows : list (string * string)) : list piece :=
  match irows, rows with
  | [], [] => [T ("  No instance or type overrides are registered with this factory" ++ nl)]
  | _, _ => (inst_part irows ++ type_part irows rows)%list
  end.
Definition types_part (total : nat) (l : list string) : list piece :=
  match total with
  | O => []
  | _ => Total total :: match l with [] => [] | _ => T ("  Type Name" ++ nl) :: T ("  ---------" ++ nl) :: map (fun n => T ("  " ++ n ++ nl)) l end
  end.
Definition printout (irows : list (string * string * string)) (rows : list (string * string)) (types : list piece) : list piece :=
  (T (nl ++ "#### Factory Configuration (*)" ++ nl ++ nl)%string :: overrides_part irows rows ++ types ++
   [T ("(*) Types with no associated type name will be printed as <unknown>" ++ nl ++ nl ++ "####" ++ nl ++ nl)%string])%list.
