(** Specification side of the register block theorems. *)
From Coq Require Import List Bool Arith ZArith String.
From Verif Require Import Prelude RegBlkModel.
Import ListNotations.
Local Open Scope nat_scope.
Local Open Scope list_scope.

(** The registers of the block, of its first block, of that one's first block, ... *)
Fixpoint spine (b : blk) : list nat :=
  let 'Blk _ r s := b in r ++ match s with [] => [] | c :: _ => spine c end.

Section Sweep.
Context {X : Type} (mir : nat -> X -> X * option stat).
(** Reading registers one after the other until one gives no status. *)
Fixpoint sweep (rs : list nat) (x : X) : X * list (nat * option stat) :=
  match rs with
  | [] => (x, [])
  | r :: rs =>
      let (x1, s) := mir r x in
      match s with
      | None => (x1, [(r, None)])
      | Some _ => let (x2, l) := sweep rs x1 in (x2, (r, s) :: l)
      end
  end.
End Sweep.
(** The overall status: none if a register gave none, a failure if one failed. *)
Definition summary (l : list (nat * option stat)) : option stat :=
  if existsb (fun p => match snd p with None => true | _ => false end) l then None
  else if existsb (fun p => match snd p with Some NotOk => true | _ => false end) l then Some NotOk
  else Some IsOk.

(** Block [c] is [b] or below it. *)
Inductive below (kids : nat -> list nat) (b : nat) : nat -> Prop :=
| below_refl : below kids b b
| below_kid c d : below kids b c -> In d (kids c) -> below kids b d.

(** The parts of a full path, from the top: one path of every block between the nearest block
    that is a path root, or the top, and the block; empty ones are left out. A block whose
    ancestors have no path is on its own. *)
Fixpoint parts (k : string) (l : list level) (cs : list string) : Prop :=
  match l with
  | [] => False
  | b :: up =>
      match root b k with
      | Some p => p <> ""%string /\ cs = [p]
      | None =>
          exists qs q, own b k = Some qs /\ In q qs /\
            ((exists cs', parts k up cs' /\ cs = cs' ++ if String.eqb q "" then [] else [q]) \/
             ((forall cs', ~ parts k up cs') /\ q <> ""%string /\ cs = [q]))
      end
  end.
