(** Model of the hooks, the callbacks and the user-defined front door of memory accesses:
    src/uvm/reg/uvm_mem.py write 624-644, read 668-689, burst_write 715-733, burst_read
    759-780, Xcheck_accessX 903-964, do_write 968-1067, do_read 1071-1165, the callback class
    src/uvm/reg/uvm_reg_cbs.py:53-237, the iteration over callbacks,
    src/uvm/base/uvm_callback.py:950-985, 1027-1065, and the choice of the sequencer of a
    user-defined front door, which registers have as well, src/uvm/reg/uvm_reg.py:1496-1505,
    1699-1707.

    Modelled: any code for hooks, callbacks and for what moves the data; it sees the offset,
    the values and the status of the operation and can change them, the list of values in place
    or by another list, or raise. Other effects of it, for example a change of the path, are
    not modelled; nor are coverage, which has no effect by default, and the message at the end,
    which is off by default. *)
From Coq Require Import ZArith List Bool Arith.
From Verif Require Import MemModel.
Import ListNotations.
Open Scope Z_scope.

Inductive stat := IsOk | HasX | NotOk.
Definition is_ok (s : stat) : bool := match s with IsOk => true | _ => false end.
(** rw.offset, rw.value, rw.status *)
Record view := View { v_off : Z; v_vals : list Z; v_st : stat }.
(** What a piece of code does to them: the contents of the list rw.value was, and the list
    that replaces it, if any *)
Record change := Change { c_off : Z; c_inplace : list Z; c_new : option (list Z); c_st : stat }.
(** [i_own]: the list the caller gave, once it is not rw.value any more (724, 768) *)
Record item := Item { i_view : view; i_own : option (list Z) }.

Inductive kind := Wr | Rd.
Inductive meth := Pre | Post.
(** A method: whether it is a coroutine, and what it does ([None]: raises). *)
Record code := Code { is_async : bool; eff : view -> option change }.
Inductive who := WHook | WCb (c : nat).
(** Through which the data move: the built-in front door, the user-defined one, run on a
    sequencer, or HDL paths and the user-defined back door *)
Inductive via := ViaBus | ViaFd (s : option nat) | ViaBack.
Inductive ev :=
| Called (w : who) (k : kind) (m : meth) (v : view)
| Moved (k : kind) (x : via) (v : view).
Inductive exc := TypeErr | AttrErr | IndexErr | UserExc.
Inductive outc (A : Type) := Ok (a : A) | Exc (e : exc) | Hang.
Arguments Ok {A} a. Arguments Exc {A} e. Arguments Hang {A}.

Record mem := Mem { m_hook : kind -> meth -> code; m_cbs : list (nat * (kind -> meth -> code)) }.

Definition change_item (ch : change) (it : item) : item :=
  Item (View (c_off ch) (match c_new ch with None => c_inplace ch | Some l => l end) (c_st ch))
       (match i_own it with
        | Some l => Some l
        | None => match c_new ch with None => None | Some _ => Some (c_inplace ch) end
        end).
Definition with_st (it : item) (s : stat) : item :=
  Item (View (v_off (i_view it)) (v_vals (i_view it)) s) (i_own it).

Definition andthen {A B : Type} (x : list ev * outc A) (k : A -> list ev * outc B) : list ev * outc B :=
  match x with
  | (t, Ok a) => let '(t2, o) := k a in (t ++ t2, o)
  | (t, Exc e) => (t, Exc e)
  | (t, Hang) => (t, Hang)
  end.
(** Calling a method with ([aw]) or without await. A coroutine that is not awaited does not
    run; awaiting what a plain function returned raises. *)
Definition call (aw : bool) (w : who) (k : kind) (m : meth) (c : code) (it : item) : list ev * outc item :=
  if is_async c && negb aw then ([], Ok it)
  else
    ([Called w k m (i_view it)],
     match eff c (i_view it) with
     | None => Exc UserExc
     | Some ch => if is_async c || negb aw then Ok (change_item ch it) else Exc TypeErr
     end).
Fixpoint call_cbs (aw : bool) (k : kind) (m : meth) (l : list (nat * (kind -> meth -> code))) (it : item)
  : list ev * outc item :=
  match l with
  | [] => ([], Ok it)
  | (c, h) :: l => andthen (call aw (WCb c) k m (h k m) it) (call_cbs aw k m l)
  end.

(** 903-964: as MemModel.check_access; with a user-defined front door neither an unmapped
    memory nor the burst is looked at (938) *)
Definition mapped (c : mcfg) : mcfg :=
  MCfg (m_size c) (m_bits c) (m_rw c) (m_dflt_back c) (m_hdl c) (m_map_given c) (m_local c) false
       (m_lbytes c) (m_addrs c) (m_stride c).
Definition check (c : mcfg) (fd : bool) (p : mpath) (offset : Z) (n : nat) : option (list merr * mpath * bool) :=
  if fd then check_access (mapped c) p offset 0 else check_access c p offset n.

Section Access.
(** What the data mover does to the operation ([None]: raises). *)
Context (move : kind -> via -> view -> option change).

Definition do_move (k : kind) (x : via) (it : item) : list ev * outc item :=
  ([Moved k x (i_view it)],
   match move k x (i_view it) with None => Exc UserExc | Some ch => Ok (change_item ch it) end).

(** 998-1031, 1099-1126. [fd]: the user-defined front door, with its sequencer; [root]: the
    sequencer of the root map *)
Definition fd_via (s root : option nat) : option nat := match s with Some _ => s | None => root end.
Definition transfer (k : kind) (rw : bool) (fd : option (option nat)) (root : option nat)
    (p : mpath) (info : bool) (it : item) : list ev * outc item :=
  let it := with_st it NotOk in                                          (* 995, 1096 *)
  match p with
  | MFront =>
      if info then
        match fd with
        | Some s => do_move k (ViaFd (fd_via s root)) it                 (* 1003-1007 *)
        | None => do_move k ViaBus it
        end
      else ([], Exc IndexErr)                                            (* 999 *)
  | _ =>
      match k with
      | Wr => if rw then do_move k ViaBack it else ([], Ok (with_st it IsOk))   (* 1023-1031 *)
      | Rd => do_move k ViaBack it
      end
  end.

(** do_write awaits every method; do_read does not await pre_read of callbacks (1089) *)
Definition body (k : kind) (rw : bool) (fd : option (option nat)) (root : option nat) (M : mem)
    (p : mpath) (info : bool) (it : item) : list ev * outc item :=
  andthen (call true WHook k Pre (m_hook M k Pre) (with_st it IsOk)) (fun it =>          (* 980-983 *)
  andthen (call_cbs (match k with Wr => true | Rd => false end) k Pre (m_cbs M) it) (fun it =>
    if negb (is_ok (v_st (i_view it))) then ([], Ok it)                                   (* 991-993 *)
    else
      andthen (transfer k rw fd root p info it) (fun it =>
      andthen (call true WHook k Post (m_hook M k Post) it) (fun it =>                    (* 1034 *)
      call_cbs true k Post (m_cbs M) it)))).

Record res (A : Type) := Res { r_errs : list merr; r_tr : list ev; r_out : outc A }.
Arguments Res {A}. 
(** The number of values is the one when the access starts. *)
Definition access (k : kind) (c : mcfg) (fd : option (option nat)) (root : option nat) (M : mem)
    (p : mpath) (it : item) : res item :=
  match check c (match fd with Some _ => true | None => false end) p
              (v_off (i_view it)) (length (v_vals (i_view it))) with
  | None => Res [] [] (Exc AttrErr)
  | Some (errs, p, info) =>
      let '(t, o) := body k (m_rw c) fd root M p info it in Res errs t o
  end.
Definition result {A B : Type} (f : A -> outc B) (x : res A) : res B :=
  Res (r_errs _ x) (r_tr _ x) (match r_out _ x with Ok a => f a | Exc e => Exc e | Hang => Hang end).

Definition write c fd root M p off v : res stat :=
  result (fun it => Ok (v_st (i_view it))) (access Wr c fd root M p (Item (View off [v] NotOk) (Some []))).
Definition read c fd root M p off : res (Z * stat) :=
  result (fun it => match v_vals (i_view it) with
                    | [] => Exc IndexErr                                  (* 689 *)
                    | v :: _ => Ok (v, v_st (i_view it))
                    end)
    (access Rd c fd root M p (Item (View off [0] NotOk) (Some []))).
(** with the caller's list afterwards *)
Definition burst_write c fd root M p off vs : res (stat * list Z) :=
  result (fun it => Ok (v_st (i_view it), match i_own it with Some l => l | None => v_vals (i_view it) end))
    (access Wr c fd root M p (Item (View off vs NotOk) None)).
(** 779-780: [for val in rw.value: value.append(val)] *)
Definition burst_read c fd root M p off : res (stat * list Z) :=
  result (fun it => match i_own it with
                    | Some l => Ok (v_st (i_view it), l ++ v_vals (i_view it))
                    | None => match v_vals (i_view it) with [] => Ok (v_st (i_view it), []) | _ => Hang end
                    end)
    (access Rd c fd root M p (Item (View off [] NotOk) None)).
End Access.
Arguments Res {A}.
Arguments r_errs {A}. Arguments r_tr {A}. Arguments r_out {A}.

(** UVMRegCbs (uvm_reg_cbs.py:53-237): coroutines that do nothing, but post_read is a plain
    function *)
Definition idle : view -> option change := fun v => Some (Change (v_off v) (v_vals v) None (v_st v)).
Definition inherited (k : kind) (m : meth) : code :=
  Code (match k, m with Rd, Post => false | _, _ => true end) idle.

(** ** The sequencer of a user-defined front door, over any accesses and settings. The
    accesses are given by whether the front door is reached: its number, the map. *)
Inductive lab :=
| LRoot (m : nat) (s : option nat)        (* set_sequencer() of the root map of map m *)
| LAssign (f : nat) (s : option nat)      (* fd.sequencer = s *)
| LStart (f m : nat).                     (* an access through map m starts front door f *)
Record fstate := FState { f_root : nat -> option nat; f_seqr : nat -> option nat }.
Definition set1 {A} (f : nat -> A) (i : nat) (v : A) : nat -> A := fun j => if Nat.eqb j i then v else f j.
(** 1003-1007; the output: the sequencer it runs on *)
Definition fstep (s : fstate) (l : lab) : fstate * list (nat * option nat) :=
  match l with
  | LRoot m q => (FState (set1 (f_root s) m q) (f_seqr s), [])
  | LAssign f q => (FState (f_root s) (set1 (f_seqr s) f q), [])
  | LStart f m =>
      let q := fd_via (f_seqr s f) (f_root s m) in
      (FState (f_root s) (set1 (f_seqr s) f q), [(f, q)])
  end.
Definition finit : fstate := FState (fun _ => None) (fun _ => None).
Fixpoint frun (s : fstate) (ls : list lab) : fstate * list (nat * option nat) :=
  match ls with
  | [] => (s, [])
  | l :: ls => let '(s, o) := fstep s l in let '(s, o2) := frun s ls in (s, o ++ o2)
  end.
