(** What back door accesses to memories should do. *)
From Coq Require Import ZArith List Bool Arith String.
From Verif Require Import HdlModel HdlSpec MbdModel.
Import ListNotations.
Open Scope Z_scope.

(** The node at a place of the design, and the element [k] of the array there *)
Fixpoint get (t : node) (loc : list string) : option node :=
  match loc with
  | [] => Some t
  | n :: loc => match t with Scope l => match lookup n l with Some t' => get t' loc | None => None end | _ => None end
  end.
Definition word (t : node) (loc : list string) (k : nat) : option Z :=
  match get t loc with Some (Arr ws) => nth_error ws k | _ => None end.
Definition signal (t : node) (loc : list string) : option Z := match get t loc with Some (Sig v) => Some v | _ => None end.
(** the names that are there, in turn; the others are passed over *)
Fixpoint found (t : node) (ns : list string) : list string :=
  match ns with
  | [] => []
  | n :: ns => match get t [n] with Some t' => n :: found t' ns | None => found t ns end
  end.
Definition leads (t : node) (p : string) (loc : list string) : Prop := exists ns, names p ns /\ found t ns = loc.

(** the part of the value for a slice: the whole value without a position *)
Definition part (s : slice_) (v x : Z) : Prop :=
  (soff s < 0 -> x = v) /\ (0 <= soff s -> 0 <= ssize s /\ x = (v / 2 ^ soff s) mod 2 ^ ssize s).
(** What the element [k] at [loc] holds after the writes [ws] in turn *)
Fixpoint after (ws : list (list string * nat * Z)) (loc : list string) (k : nat) (old : Z) : Z :=
  match ws with
  | [] => old
  | (l, j, v) :: ws => after ws loc k (if list_eq_dec string_dec l loc then if Nat.eqb j k then v else old else old)
  end.
(** The writes that the slices of all paths make, element by element *)
Definition slice_write (t : node) (s : slice_) (off : nat) (v : Z) (w : list string * nat * Z) : Prop :=
  exists loc x old, w = (loc, off, x) /\ leads t (spath s) loc /\ word t loc off = Some old /\ part s v x.
Inductive writes (t : node) (ps : list (list slice_)) : nat -> list Z -> list (list string * nat * Z) -> Prop :=
| w_nil off : writes t ps off [] []
| w_cons off v vals ws ws' : Forall2 (fun s w => slice_write t s off v w) (List.concat ps) ws -> writes t ps (S off) vals ws' -> writes t ps off (v :: vals) (ws ++ ws').
(** All paths are those of whole elements; they lead to the arrays at [locs]. *)
Definition whole (t : node) (ps : list (list slice_)) (locs : list (list string)) : Prop :=
  Forall2 (fun con loc => exists s, con = [s] /\ soff s < 0 /\ leads t (spath s) loc) ps locs.
(** the abstraction that counts *)
Definition abstraction (c : mem_cfg) (kind k : string) : Prop :=
  (kind <> EmptyString /\ k = kind) \/ (kind = EmptyString /\ nearest (mblocks c) k).
(** the paths of a memory: each of its groups of slices, below every path of its block *)
Definition path_of (c : mem_cfg) (k : string) (con : list slice_) : Prop :=
  exists own con0 ps, lookup k (mpaths c) = Some own /\ In con0 own /\ picks k (mblocks c) ps /\
    full "." ps <> EmptyString /\ con = map (below (full "." ps)) con0.
