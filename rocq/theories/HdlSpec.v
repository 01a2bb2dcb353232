(** What HDL paths mean, and what back door accesses should do. *)
From Coq Require Import ZArith List Bool String Ascii.
From Verif Require Import RegFieldModel RegFieldSpec RegModel RegSpec HdlModel.
Import ListNotations.
Open Scope Z_scope.

(** ** Full paths *)
(** One path for every block from the outside in, starting at the top, at a block with a root path,
    or below a block without a path (an error is reported for it). *)
Inductive picks (kind : string) : list bnode -> list string -> Prop :=
| picks_top : picks kind [] []
| picks_root b bs p : lookup kind (broots b) = Some p -> picks kind (b :: bs) [p]
| picks_none b bs : lookup kind (broots b) = None -> lookup kind (bpaths b) = None -> picks kind (b :: bs) []
| picks_own b bs own p ps : lookup kind (broots b) = None -> lookup kind (bpaths b) = Some own -> In p own ->
    picks kind bs ps -> picks kind (b :: bs) (ps ++ [p]).
Definition nonempty (p : string) : bool := match p with EmptyString => false | _ => true end.
(** the non-empty ones, separated *)
Definition full (sep : string) (ps : list string) : string := String.concat sep (filter nonempty ps).
(** A block has an empty path only if it is its only one. *)
Definition clear_paths (kind : string) (b : bnode) : Prop :=
  forall own, lookup kind (bpaths b) = Some own -> own = [EmptyString] \/ (own <> [] /\ ~ In EmptyString own).
(** A slice of the register in the block at [x] *)
Definition below (x : string) (s : slice_) : slice_ :=
  match spath s with
  | EmptyString => Slice x (-1) (-1)
  | p => Slice (x ++ "." ++ p) (soff s) (ssize s)
  end.

(** ** Where a path leads *)
Fixpoint get (t : node) (loc : list string) : option node :=
  match loc with
  | [] => Some t
  | n :: loc => match t with Scope l => match lookup n l with Some t' => get t' loc | None => None end | Sig _ => None end
  end.
Definition signal (t : node) (loc : list string) : option Z :=
  match get t loc with Some (Sig v) => Some v | _ => None end.
(** the names that are there, in turn; the others are passed over *)
Fixpoint found (t : node) (ns : list string) : list string :=
  match ns with
  | [] => []
  | n :: ns => match get t [n] with Some t' => n :: found t' ns | None => found t ns end
  end.
Fixpoint has_dot (s : string) : bool :=
  match s with EmptyString => false | String c s => Ascii.eqb c "." || has_dot s end.
Definition names (p : string) (ns : list string) : Prop :=
  ns <> [] /\ Forall (fun n => has_dot n = false) ns /\ p = String.concat "." ns.
Definition leads (t : node) (p : string) (loc : list string) : Prop := exists ns, names p ns /\ found t ns = loc.
(** The paths of the register are whole-register paths, leading to the signals at [locs]. *)
Definition whole (t : node) (ps : list (list slice_)) (locs : list (list string)) : Prop :=
  Forall2 (fun con loc => exists s, con = [s] /\ soff s < 0 /\ leads t (spath s) loc) ps locs.
Definition holds (t : node) (n v : Z) (loc : list string) : Prop := exists x, signal t loc = Some x /\ x mod 2 ^ n = v.

(** ** Registers *)
Definition well_formed (r : reg) : Prop :=
  0 <= n_bits r /\ layout (n_bits r) (fields r) /\ in_order (fields r) /\
  Forall (fun f => fits_in (size f) (mirrored f) /\ fits_in (size f) (desired f) /\
                   Forall (fun kv => fits_in (size f) (snd kv)) (resets f)) (fields r).
(** [v] is made of bit [b f i] wherever field [f] is, and of zeros elsewhere. *)
Definition made_of (fs : list field) (v : Z) (b : field -> Z -> bool) : Prop :=
  0 <= v /\ (forall f i, In f fs -> covers f i -> Z.testbit v i = b f i) /\
  (forall i, 0 <= i -> (forall f, In f fs -> ~ covers f i) -> Z.testbit v i = false).
(** Both values of every field are its part of [v]; nothing else changes but that it counts as written. *)
Definition takes (v : Z) (wrote : bool) (f f' : field) : Prop :=
  size f' = size f /\ lsb f' = lsb f /\ access f' = access f /\ volatile f' = volatile f /\ resets f' = resets f /\
  written f' = (wrote || written f) /\ desired f' = mirrored f' /\
  has_bits (size f) (mirrored f') (fun i => Z.testbit v (i + lsb f)).

(** ** Calls on a register *)
Inductive call := CWrite (back : bool) (v : Z) (m : via) | CRead (back : bool) (m : via) | CMirror (back check : bool) (m : via).
Definition by_back (x : call) : bool := match x with CWrite b _ _ | CRead b _ | CMirror b _ _ => b end.
(** the same call through the front door *)
Definition by_front (x : call) : call :=
  match x with CWrite _ v m => CWrite false v m | CRead _ m => CRead false m | CMirror _ k m => CMirror false k m end.
Section Calls.
Context {H : Type} (wr : @D H -> via -> Z -> @D H * bool) (rd : @D H -> via -> @D H * Z * bool) (c : cfg).
Definition do_call (s : st H) (x : call) : st H * outcome * list err :=
  match x with
  | CWrite b v m => write wr c s b v m
  | CRead b m => read rd c s b m
  | CMirror b k m => mirror rd c s b k m
  end.
Fixpoint calls (s : st H) (xs : list call) : st H * list outcome :=
  match xs with
  | [] => (s, [])
  | x :: xs => let '(s1, o, _) := do_call s x in let '(s2, os) := calls s1 xs in (s2, o :: os)
  end.
End Calls.

(** ** Designs *)
(** Seen through the signal at [loc], the design (its signals and the rest of its state) is the
    register [dwr]/[drd]; its hierarchy stays as it is. *)
Definition seen_as {H} (loc : list string)
    (wr : @D H -> via -> Z -> @D H * bool) (rd : @D H -> via -> @D H * Z * bool)
    (dwr : Z * H -> via -> Z -> (Z * H) * bool) (drd : Z * H -> via -> (Z * H) * Z * bool) : Prop :=
  forall t h m x, signal t loc = Some x ->
    (forall v t' h' ok, wr (t, h) m v = ((t', h'), ok) ->
       exists x', dwr (x, h) m v = ((x', h'), ok) /\ signal t' loc = Some x' /\ forall l, get t l = None <-> get t' l = None) /\
    (forall v t' h' ok, rd (t, h) m = ((t', h'), v, ok) ->
       exists x', drd (x, h) m = ((x', h'), v, ok) /\ signal t' loc = Some x' /\ forall l, get t l = None <-> get t' l = None).
(** no bits outside of the fields *)
Definition tidy (fs : list field) (x : Z) : Prop :=
  0 <= x /\ forall i, 0 <= i -> (forall f, In f fs -> ~ covers f i) -> Z.testbit x i = false.

(** ** Which abstraction, and which groups of slices *)
(** the default abstraction of the nearest block that has one *)
Definition nearest (bs : list bnode) (k : string) : Prop :=
  (exists b1 b b2, bs = b1 ++ b :: b2 /\ Forall (fun x => bdefault x = EmptyString) b1 /\ bdefault b = k /\ k <> EmptyString) \/
  (Forall (fun x => bdefault x = EmptyString) bs /\ k = EmptyString).
(** a block on the way up to the top or to a root path has no path *)
Inductive misses (kind : string) : list bnode -> Prop :=
| misses_here b bs : lookup kind (broots b) = None -> lookup kind (bpaths b) = None -> misses kind (b :: bs)
| misses_above b bs own : lookup kind (broots b) = None -> lookup kind (bpaths b) = Some own -> misses kind bs -> misses kind (b :: bs).
(** Slices added in turn, each with its [first] flag, and the groups they form: a flag opens a new
    group, and so does the first slice. *)
Definition groups_of (xs : list (slice_ * bool)) (gs : list (list slice_)) : Prop :=
  exists segs : list (list (slice_ * bool)), List.concat segs = xs /\ map (map fst) segs = gs /\
    Forall (fun seg => exists x l, seg = x :: l /\ Forall (fun y => snd y = false) l) segs /\
    Forall (fun seg => exists x l, seg = x :: l /\ snd x = true) (tl segs).
(** not readable through the back door *)
Definition hidden (p : policy) : Prop := p = WO \/ p = WOC \/ p = WOS \/ p = WO1.
(** The register access test is done. *)
Definition tested (fs : list field) (ms : list via) : Prop :=
  forall m, In m ms -> (exists f, In f fs /\ get_access f m <> RO) /\
    forall f, In f fs -> get_access f m <> NOACCESS /\ forall n, get_access f m <> USER n.
