(** Spec of hooks, callbacks and front doors of memory accesses. *)
From Coq Require Import ZArith List Bool Arith.
From Verif Require Import MemModel McbModel.
Import ListNotations.
Open Scope Z_scope.

(** Coroutines that do not raise *)
Definition fine (c : code) : Prop := is_async c = true /\ forall v, eff c v <> None.
Definition plain (c : code) : Prop := is_async c = false /\ forall v, eff c v <> None.
Definition hooks_fine (M : mem) : Prop := forall k m, fine (m_hook M k m).

(** The operation after a change: the list put in place of the old one, or the old one as
    changed *)
Definition turned (ch : change) (v : view) : Prop :=
  v_off v = c_off ch /\ v_st v = c_st ch /\
  (forall l, c_new ch = Some l -> v_vals v = l) /\ (c_new ch = None -> v_vals v = c_inplace ch).
(** [passes l v seen v' chs]: the pieces of code [l] run one after the other, each seeing what the one
    before left *)
Inductive passes : list (who * code) -> view -> list (who * view) -> view -> list change -> Prop :=
| passes_nil v : passes [] v [] v []
| passes_cons w c l v ch v1 seen v' chs : eff c v = Some ch -> turned ch v1 ->
    passes l v1 seen v' chs -> passes ((w, c) :: l) v ((w, v) :: seen) v' (ch :: chs).

Definition calls (k : kind) (m : meth) : list (who * view) -> list ev :=
  map (fun x => Called (fst x) k m (snd x)).
Definition cbs_of (M : mem) (k : kind) (m : meth) : list (who * code) :=
  map (fun c => (WCb (fst c), snd c k m)) (m_cbs M).
(** the callbacks whose method is not a coroutine *)
Definition at_once (k : kind) (m : meth) (l : list (nat * (kind -> meth -> code))) :=
  filter (fun c => negb (is_async (snd c k m))) l.
Definition restat (v : view) (s : stat) : view := View (v_off v) (v_vals v) s.

(** What runs before the data move: of a read only callbacks that are not coroutines; what has
    to be true of it; and the same for what runs afterwards *)
Definition pre_list (k : kind) (M : mem) : list (who * code) :=
  (WHook, m_hook M k Pre) ::
  match k with Wr => cbs_of M Wr Pre | Rd => map (fun c => (WCb (fst c), snd c Rd Pre)) (at_once Rd Pre (m_cbs M)) end.
Definition pre_fine (k : kind) (M : mem) : Prop :=
  fine (m_hook M k Pre) /\
  match k with
  | Wr => Forall (fun c : nat * (kind -> meth -> code) => fine (snd c Wr Pre)) (m_cbs M)
  | Rd => Forall (fun c : nat * (kind -> meth -> code) => forall v, eff (snd c Rd Pre) v <> None) (m_cbs M)
  end.
Definition post_fine (k : kind) (M : mem) : Prop :=
  fine (m_hook M k Post) /\ Forall (fun c : nat * (kind -> meth -> code) => fine (snd c k Post)) (m_cbs M).


(** The caller's list [l] after changes of rw.value: as last changed while it was rw.value *)
Inductive leaves : list change -> list Z -> list Z -> Prop :=
| leaves_nil l : leaves [] l l
| leaves_kept ch chs l l' : c_new ch = None -> leaves chs (c_inplace ch) l' -> leaves (ch :: chs) l l'
| leaves_gone ch chs l x : c_new ch = Some x -> leaves (ch :: chs) l (c_inplace ch).

(** Where an access goes: the path is the front door, or leads there; the memory is in the
    map. *)
Definition to_front (c : mcfg) (p : mpath) : Prop :=
  m_local c = true /\
  match p with MFront => True | MBack => m_hdl c = false | MDefault => m_dflt_back c = false \/ m_hdl c = false end.
Definition to_back (c : mcfg) (p : mpath) : Prop :=
  m_hdl c = true /\ match p with MFront => False | MBack => True | MDefault => m_dflt_back c = true end.

(** Through what the data move; without a front door of its own an unmapped memory is
    reached only when a map is given. *)
Inductive goes (k : kind) (c : mcfg) (p : mpath) (root : option nat) : option (option nat) -> via -> Prop :=
| goes_bus : to_front c p -> (m_unmapped c = true -> m_map_given c = true) -> goes k c p root None ViaBus
| goes_fd s : to_front c p -> goes k c p root (Some (Some s)) (ViaFd (Some s))
| goes_root : to_front c p -> goes k c p root (Some None) (ViaFd root)
| goes_back fd : to_back c p -> (k = Wr -> m_rw c = true) -> goes k c p root fd ViaBack.

Definition moves (t : list ev) : list (kind * via * view) :=
  flat_map (fun e => match e with Moved k x v => [(k, x, v)] | _ => [] end) t.

(** ** Sequencers of front doors; histories are newest first. *)
Fixpoint last_root (m : nat) (h : list lab) : option nat :=
  match h with
  | [] => None
  | LRoot n s :: h => if Nat.eqb m n then s else last_root m h
  | _ :: h => last_root m h
  end.
(** [on h f m s]: after [h], front door [f] started for map [m] runs on [s] *)
Inductive has (f : nat) : list lab -> option nat -> Prop :=
| has_nil : has f [] None
| has_assign h s : has f (LAssign f s :: h) s
| has_kept h m s : has f h (Some s) -> has f (LStart f m :: h) (Some s)
| has_taken h m : has f h None -> has f (LStart f m :: h) (last_root m h)
| has_other h l s : (forall m, l <> LStart f m) -> (forall q, l <> LAssign f q) -> has f h s -> has f (l :: h) s.
