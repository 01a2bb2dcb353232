(** What debug_create_by_type should tell, from the calls. *)
From Coq Require Import List Bool Arith.
From Verif Require Import FactoryModel FactorySpec FdbModel.
Import ListNotations.

Section Spec.
Context (pmatch : nat -> nat -> bool).
(** the instance overrides of a type, each pattern and type once, in the order set *)
Definition inst_set1 (x : nat) (l : list (nat * nat)) (o : fop) : list (nat * nat) :=
  match o with
  | InstT o t pat => if Nat.eqb o x && negb (existsb (fun r => Nat.eqb (fst r) pat && Nat.eqb (snd r) t) l) then l ++ [(pat, t)] else l
  | _ => l
  end.
Definition inst_set (hist : list fop) (x : nat) : list (nat * nat) := fold_left (inst_set1 x) hist [].
(** the overrides that apply to a type at a path, those of instances first *)
Definition applicable (hist : list fop) (path : option nat) (x : nat) : list (option nat * nat) :=
  (match path with
   | None => []
   | Some p => map (fun r => (Some (fst r), snd r)) (filter (fun r => pmatch (fst r) p) (inst_set hist x))
   end) ++ match type_choice hist x with Some t => [(None, t)] | None => [] end.
(** the rows of a type: the first is the one followed *)
Definition rows (x : nat) (l : list (option nat * nat)) : list drow :=
  match l with
  | [] => []
  | r :: l => DRow true (Some x) (fst r) (snd r) :: map (fun r => DRow false (Some x) (fst r) (snd r)) l
  end.
(** the rows told from type x on, when the types [seen] have been gone through, and the last type *)
Inductive tells (hist : list fop) (path : option nat) : list nat -> nat -> list drow -> nat -> Prop :=
| T_loop seen x : In x seen -> tells hist path seen x [] x
| T_none seen x : ~ In x seen -> applicable hist path x = [] -> tells hist path seen x [] x
| T_self seen x q l : ~ In x seen -> applicable hist path x = (q, x) :: l -> tells hist path seen x (rows x ((q, x) :: l)) x
| T_step seen x q y l r t : ~ In x seen -> applicable hist path x = (q, y) :: l -> y <> x ->
    tells hist path (x :: seen) y r t -> tells hist path seen x (rows x ((q, y) :: l) ++ r) t.
End Spec.
