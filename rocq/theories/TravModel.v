(** Model of the walks over the component tree: UVMTopdownPhase.traverse
    (src/uvm/base/uvm_topdown_phase.py 56-109), UVMBottomupPhase.traverse
    (uvm_bottomup_phase.py 54-100), UVMTaskPhase.m_traverse (uvm_task_phase.py 98-172),
    do_resolve_bindings (uvm_component.py 2160-2166), and of the child iterator of
    UVMComponent (uvm_component.py 315-375, 2565-2566).

    Components are numbered. A callback (phase_started, execute, ...) is modelled by its
    effect on the tree and on the iterators: [adds c], the children that the callback of c
    creates below c, and [touch c], the iterator positions that it leaves changed.
    Simplified: children of the same component have different names (a clash is a fatal
    error), so that m_children and m_children_ordered list the same components. *)
From Coq Require Import ZArith List Bool.
Import ListNotations.

Section Trav.
Context (adds : nat -> list nat) (touch : nat -> list (nat * Z)) (dom : nat -> bool).
Record tree_st := TreeSt { kids : nat -> list nat; ptr : nat -> Z }.
Definition setp (s : tree_st) (c : nat) (z : Z) : tree_st :=
  TreeSt (kids s) (fun x => if Nat.eqb c x then z else ptr s x).
(** The callback of c. *)
Definition act (s : tree_st) (c : nat) : tree_st :=
  fold_left (fun s e => setp s (fst e) (snd e)) (touch c)
    (TreeSt (fun x => if Nat.eqb c x then kids s x ++ adds c else kids s x) (ptr s)).
(** 353-373 *)
Definition get_first_child (s : tree_st) (c : nat) : tree_st * option nat :=
  (setp s c 0, hd_error (kids s c)).
(** 343-351; a negative index counts from the end *)
Definition get_next_child (s : tree_st) (c : nat) : tree_st * option nat :=
  let p := (ptr s c + 1)%Z in
  (setp s c p,
   if (p <? Z.of_nat (length (kids s c)))%Z
   then nth_error (kids s c) (Z.to_nat (if (p <? 0)%Z then p + Z.of_nat (length (kids s c)) else p))
   else None).
Definition has_first_child (s : tree_st) (c : nat) : bool := match kids s c with [] => false | _ => true end.

(** The two jobs of traverse: visiting a component, and continuing its loop over children. *)
Inductive job := Visit (c : nat) | Loop (c : nat) (child : option nat).
(** Only components of the phase's domain, or all in the common domain, are called (84). *)
Definition call (s : tree_st) (c : nat) : tree_st * list nat := if dom c then (act s c, [c]) else (s, []).
(** uvm_topdown_phase.py 56-109; the components called, in order. None: the walk does not end. *)
Fixpoint topdown (fuel : nat) (s : tree_st) (j : job) : option (tree_st * list nat) :=
  match fuel with
  | O => None
  | S k =>
      match j with
      | Visit c =>
          let (s1, v) := call s c in
          if has_first_child s1 c then
            let (s2, ch) := get_first_child s1 c in
            match topdown k s2 (Loop c ch) with Some (s3, w) => Some (s3, v ++ w) | None => None end
          else Some (s1, v)
      | Loop c None => Some (s, [])
      | Loop c (Some ch) =>
          match topdown k s (Visit ch) with
          | None => None
          | Some (s1, v) =>
              let (s2, nx) := get_next_child s1 c in
              match topdown k s2 (Loop c nx) with Some (s3, w) => Some (s3, v ++ w) | None => None end
          end
      end
  end.
(** uvm_bottomup_phase.py 54-100 *)
Fixpoint bottomup (fuel : nat) (s : tree_st) (j : job) : option (tree_st * list nat) :=
  match fuel with
  | O => None
  | S k =>
      match j with
      | Visit c =>
          if has_first_child s c then
            let (s2, ch) := get_first_child s c in
            match bottomup k s2 (Loop c ch) with
            | Some (s3, w) => let (s4, v) := call s3 c in Some (s4, w ++ v)
            | None => None
            end
          else Some (call s c)
      | Loop c None => Some (s, [])
      | Loop c (Some ch) =>
          match bottomup k s (Visit ch) with
          | None => None
          | Some (s1, v) =>
              let (s2, nx) := get_next_child s1 c in
              match bottomup k s2 (Loop c nx) with Some (s3, w) => Some (s3, v ++ w) | None => None end
          end
      end
  end.
(** uvm_task_phase.py 98-172: get_children (315-331) takes a copy of the list of children. *)
Fixpoint task_walk (fuel : nat) (s : tree_st) (c : nat) : option (tree_st * list nat) :=
  match fuel with
  | O => None
  | S k =>
      match (fix go (l : list nat) (s : tree_st) : option (tree_st * list nat) :=
               match l with
               | [] => Some (s, [])
               | ch :: t =>
                   match task_walk k s ch with
                   | None => None
                   | Some (s1, v) => match go t s1 with Some (s2, w) => Some (s2, v ++ w) | None => None end
                   end
               end) (kids s c) s with
      | None => None
      | Some (s1, w) => let (s2, v) := call s1 c in Some (s2, w ++ v)
      end
  end.
End Trav.
