(** What users expect of callback registration, stated over the history of
    calls only. *)
From Coq Require Import Arith List Bool.
From Verif Require Import CallbackModel.
Import ListNotations.

(** Insert at the requested end unless already there. *)
Definition enter (q : list nat) (e : nat * ordering) : list nat :=
  if in_dec Nat.eq_dec (fst e) q then q
  else match snd e with Append => q ++ [fst e] | Prepend => fst e :: q end.

Fixpoint adds_to (obj : option nat) (h : list cop) : list (nat * ordering) :=
  match h with
  | [] => []
  | KAdd (Some a) (Some c) o :: h' =>
      match obj with
      | Some b => if Nat.eq_dec a b then (c, o) :: adds_to obj h' else adds_to obj h'
      | None => adds_to obj h'
      end
  | KAdd None (Some c) o :: h' =>
      match obj with
      | None => (c, o) :: adds_to obj h'
      | Some _ => adds_to obj h'
      end
  | _ :: h' => adds_to obj h'
  end.

(** The callbacks registered with exactly this object (or type-wide), in order. *)
Definition registered (obj : option nat) (h : list cop) : list nat :=
  fold_left enter (adds_to obj h) [].

(** The last setting of a callback's mode; on by default. *)
Definition mode_after (h : list cop) (c : nat) : bool :=
  fold_left (fun b op => match op with
                         | KMode c' on => if Nat.eq_dec c' c then on else b
                         | _ => b
                         end) h true.
