(** Model of src/uvm/base/uvm_spell_chkr.py. Strings are lists of character codes. *)
From Coq Require Import ZArith List Bool Arith.
Import ListNotations.
Local Open Scope nat_scope.

Definition str := list nat.
Fixpoint str_eqb (a b : str) : bool :=
  match a, b with
  | [], [] => true
  | x :: a', z :: b' => Nat.eqb x z && str_eqb a' b'
  | _, _ => false
  end.

(** d[k] = v and d[k], 165-183; SpellProofs.v shows every index used is in range. *)
Fixpoint set_nth (k : nat) (v : nat) (d : list nat) : list nat :=
  match d, k with
  | [], _ => []
  | _ :: d', O => v :: d'
  | x :: d', S k' => x :: set_nth k' v d'
  end.
Definition get (d : list nat) (k : nat) : nat := nth k d 0.

(** for k in range(a, a+c) *)
Fixpoint for_range {S : Type} (a c : nat) (f : nat -> S -> S) (s : S) : S :=
  match c with O => s | S c' => for_range (a + 1) c' f (f a s) end.

(** 186-198 *)
Definition minimum (a b c : nat) : nat := Nat.min a (Nat.min b c).

(** 125-184; None is the -1 of 163. *)
Definition cell (s t : str) (n i j : nat) (d : list nat) : list nat :=
  let cost := if Nat.eqb (nth (i - 1) s 0) (nth (j - 1) t 0) then 0 else 1 in
  set_nth (j * n + i)
    (minimum (get d ((j - 1) * n + i) + 1) (get d (j * n + i - 1) + 1)
             (get d ((j - 1) * n + i - 1) + cost)) d.
Definition levenshtein (s t : str) : option nat :=
  let n := length s + 1 in
  let m := length t + 1 in
  if (n =? 1) || (m =? 1) then None
  else
    let d := repeat 0 (m * n) in
    let d := for_range 0 n (fun k d => set_nth k k d) d in
    let d := for_range 0 m (fun k d => set_nth (k * n) k d) d in
    let d := for_range 1 (n - 1) (fun i d => for_range 1 (m - 1) (fun j d => cell s t n i j d) d) d in
    Some (get d (n * m - 1)).

(** 31 *)
Definition max_val := 1.

(** 87-106 *)
Definition scan1 (s : str) (acc : nat * list str) (key : str) : nat * list str :=
  let '(min_val, min_key) := acc in
  match levenshtein key s with
  | None => acc
  | Some dist =>
      if dist <? min_val then (dist, [key])
      else if dist =? min_val then (min_val, min_key ++ [key])
      else acc
  end.

(** The answer of check and the names offered in its messages, 36-123. The loop
    115-122 reports once per name, each time with all names so far. *)
Inductive msg := NoAlternatives | DidYouMean (names : list str).
Definition check (strtab : list str) (s : str) : bool * list msg :=
  if existsb (str_eqb s) strtab then (true, [])
  else
    let '(min_val, min_key) := fold_left (scan1 s) strtab (max_val, []) in
    (false, if min_val =? max_val then [NoAlternatives]
            else map (fun i => DidYouMean (firstn (S i) min_key)) (seq 0 (length min_key))).
