(** What automatic configuration is measured against. *)
From Coq Require Import List Bool Arith ZArith Ascii.
From Verif Require Import SvSpec AutoModel.
Import ListNotations.
Local Open Scope nat_scope.

(** Names of declared fields: words without punctuation. *)
Definition word_char (c : ascii) : Prop :=
  plain c /\ ~ In c ["*"; "?"; "."; "["; "]"; "/"]%char.
Definition word (s : list ascii) : Prop := s <> [] /\ Forall word_char s.

(** Literal names: words, dots and brackets. *)
Definition literal (s : list ascii) : Prop :=
  Forall (fun c => plain c /\ ~ In c ["*"; "?"; "/"]%char) s.

(** The last element of a list with a property. *)
Definition last_such {R} (P : R -> Prop) (l : list R) (r : R) : Prop :=
  exists l1 l2, l = l1 ++ r :: l2 /\ P r /\ forall x, In x l2 -> ~ P x.

(** The values that can be given to a field. *)
Definition assignable (v : value) : Prop :=
  match v with VInt _ | VText _ | VObj _ => True | _ => False end.

(** A resource concerns a field of a component with the declared fields [ds] when it has the
    name of one of them (or recording_detail), this name occurs in the field's name, and its
    value can be given to a field. *)
Definition concerns (ds : list (list ascii * bool)) (f : list ascii) (r : rsrc) : Prop :=
  (In (rname r) (map fst ds) \/ rname r = recording_detail) /\ part_of (rname r) f /\ assignable (rval r).

Definition has_sep (s : list ascii) : Prop := In "."%char s \/ In "["%char s.

(** Numbers in the order of their first appearance. *)
Fixpoint first_seen (ks : list Z) : list Z :=
  match ks with
  | [] => []
  | k :: t => k :: filter (fun x => negb (x =? k)%Z) (first_seen t)
  end.

(** Objects reached from [c] by writable fields, with the dotted path; an object put in by the
    setting itself may be on the way. *)
Inductive path_to (h : heap) (v : value) (c : nat) : list ascii -> nat -> Prop :=
| path_here : path_to h v c [] c
| path_down p o f o' : path_to h v c p o -> In (f, false) (decls (h o)) ->
    attr (h o) f = Some (VObj o') \/ v = VObj o' -> path_to h v c (dotted p f) o'.
