From Coq Require Import ZArith List Bool Arith Ascii.
From Verif Require Import SvModel.
Import ListNotations.
Open Scope Z_scope.

(** Keys held by process [p] according to the trace: granted minus put. *)
Fixpoint keys_held (p : nat) (tr : list sout) : Z :=
  match tr with
  | [] => 0
  | SGot q n :: tr => (if Nat.eqb q p then n else 0) + keys_held p tr
  | SPutDone q n :: tr => (if Nat.eqb q p then - n else 0) + keys_held p tr
  | _ :: tr => keys_held p tr
  end.
(** Keys held by everybody. *)
Fixpoint all_held (tr : list sout) : Z :=
  match tr with
  | [] => 0
  | SGot _ n :: tr => n + all_held tr
  | SPutDone _ n :: tr => all_held tr - n
  | _ :: tr => all_held tr
  end.

(** What the documentation of uvm_is_match says: '*' is any sequence, '?' any
    single character, anything else itself, over the whole string. *)
Inductive glob : list ascii -> list ascii -> Prop :=
| G_nil : glob [] []
| G_star_skip p s : glob p s -> glob ("*"%char :: p) s
| G_star_eat p c s : glob ("*"%char :: p) s -> glob ("*"%char :: p) (c :: s)
| G_quest p c s : glob p s -> glob ("?"%char :: p) (c :: s)
| G_char p c s : c <> "*"%char -> c <> "?"%char -> glob p s -> glob (c :: p) (c :: s).

(** Characters that the translation passes on although they mean something
    else in a regular expression. *)
Definition plain (c : ascii) : Prop :=
  ~ In c ["+"; "("; ")"; "{"; "}"; "^"; "$"; "|"; "\"]%char.
(** [a] occurs in [b] as a contiguous part. *)
Definition part_of (a b : list ascii) : Prop := exists l r, b = l ++ a ++ r.
Definition slash_delimited (p : list ascii) : Prop :=
  exists m, p = "/"%char :: m /\ last p " "%char = "/"%char.
