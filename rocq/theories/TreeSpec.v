(** What the component hierarchy and its names should be. *)
From Coq Require Import ZArith List Bool Arith Ascii.
From Verif Require Import Prelude SvModel TreeModel.
Import ListNotations.
Local Open Scope nat_scope.

(** [e] is the child named [n] of [c] *)
Definition child (t : tree) (c : nat) (n : str) (e : nat) : Prop :=
  exists x, nth_error (comps t) c = Some x /\ In (n, e) (kids x).
(** Following children by their names *)
Inductive path (t : tree) : nat -> list str -> nat -> Prop :=
| path_here c : path t c [] c
| path_down c n e ns d : child t c n e -> path t e ns d -> path t c (n :: ns) d.
(** The separator, independently of the model *)
Definition dot : ascii := "."%char.
Fixpoint join (ns : list str) : str :=
  match ns with [] => [] | [n] => n | n :: ns => n ++ dot :: join ns end.
Definition dotfree (n : str) : Prop := ~ In dot n.
Definition good_name (n : str) : Prop := n <> [] /\ dotfree n.
Definition exists_in (t : tree) (c : nat) : Prop := c < length (comps t).
(** No name given to a constructor has a dot. *)
Definition no_dots (l : lab) : Prop := match l with LNew n _ _ => dotfree n | _ => True end.

(** The subtree of [c], descendants first, children in the order of their list *)
Inductive postorder (t : tree) : nat -> list nat -> Prop :=
| post_intro c x ls : nth_error (comps t) c = Some x -> Forall2 (postorder t) (map snd (kids x)) ls ->
    postorder t c (concat ls ++ [c]).
Definition below (t : tree) (c d : nat) : Prop := exists ns, path t c ns d.
