(** Model of the hierarchy of address maps and of the choice of a map:
    src/uvm/reg/uvm_reg_map.py add_reg 322-376, add_submap 434-506, set_sequencer 510-534,
    set_submap_offset 537-557, add_parent_map 614-638, Xinit_address_mapX 98-222 (who is
    initialised), get_root_map 775-789, get_sequencer / get_adapter 897-931, get_submaps,
    get_registers 934-983, get_reg_map_info 1037-1056, set_auto_predict, set_check_on_read
    1241-1314; src/uvm/reg/uvm_reg.py is_in_map 327-346, get_local_map 362-389,
    get_default_map 391-425, get_rights 433-460, Xcheck_accessX 1280-1330 for the front door;
    src/uvm/reg/uvm_reg_block.py configure 103-119, create_map 124-158, set_default_map 184-193,
    lock_model 294-350, Xinit_address_mapsX 1352-1354.

    Blocks, maps and registers are numbered in the order of creation. Left out: offsets and
    addresses (RegMapModel), memories, warnings, registers sharing an address (their callbacks:
    RegCbModel), maps made without create_map, add_parent_map called by the user. *)
From Coq Require Import List Bool Arith.
From Verif Require Import Prelude.
Import ListNotations.

Record block := Block { b_par : option nat; b_kids : list nat; b_lock : bool; b_maps : list nat; b_def : option nat }.
(** UVMRegMapInfo; [i_front]: a user front door is given *)
Record info := Info { i_rights : nat; i_unmapped : bool; i_front : bool; i_init : bool }.
Record amap := AMap {
  p_blk : nat; p_par : option nat; p_sub : list nat; p_regs : list (nat * info);
  p_seq : option nat; p_adp : option nat; p_auto : bool; p_check : bool }.
Record areg := AReg { r_blk : nat; r_maps : list nat }.
Record ms := MS { nb : nat; bl : nat -> block; nm : nat; mp : nat -> amap; nr : nat; rg : nat -> areg }.

Definition set_bl (s : ms) (b : nat) (x : block) : ms := MS (nb s) (upd (bl s) b x) (nm s) (mp s) (nr s) (rg s).
Definition set_mp (s : ms) (m : nat) (x : amap) : ms := MS (nb s) (bl s) (nm s) (upd (mp s) m x) (nr s) (rg s).
Definition set_rg (s : ms) (r : nat) (x : areg) : ms := MS (nb s) (bl s) (nm s) (mp s) (nr s) (upd (rg s) r x).
Definition memb (n : nat) (l : list nat) : bool := existsb (Nat.eqb n) l.
Definition eqo (a b : option nat) : bool :=
  match a, b with Some x, Some y => Nat.eqb x y | None, None => true | _, _ => false end.

(** ** Walks; None: they do not end *)
(** 485-488 of uvm_reg_map.py: some block from [b] upwards has the parent [target] *)
Fixpoint reaches (fuel : nat) (s : ms) (b : option nat) (target : nat) : option bool :=
  match fuel with
  | O => None
  | S k =>
      match b with
      | None => Some false
      | Some b => if eqo (b_par (bl s b)) (Some target) then Some true else reaches k s (b_par (bl s b)) target
      end
  end.
(** the maps above, by get_parent_map() *)
Fixpoint above (fuel : nat) (s : ms) (m : nat) : option (list nat) :=
  match fuel with
  | O => None
  | S k => match p_par (mp s m) with None => Some [] | Some p => option_map (cons p) (above k s p) end
  end.
Definition ups (s : ms) (m : nat) : list nat := match above (S (nb s)) s m with Some l => l | None => [] end.
(** 786-789 *)
Definition root (s : ms) (m : nat) : nat := last (ups s m) m.
Section Collect.
Context {A : Type} (f : nat -> list A).
(** "here, then for each submap in turn" *)
Fixpoint collect (fuel : nat) (s : ms) (m : nat) : option (list A) :=
  match fuel with
  | O => None
  | S k =>
      option_map (fun l => f m ++ l)
        (fold_left (fun o c => match o, collect k s c with Some l, Some l2 => Some (l ++ l2) | _, _ => None end)
           (p_sub (mp s m)) (Some []))
  end.
End Collect.
Definition get {A} (o : option (list A)) : list A := match o with Some l => l | None => [] end.
(** 951-957 and 977-983 *)
Definition get_submaps (s : ms) (m : nat) : list nat := get (collect (fun m => p_sub (mp s m)) (S (nb s)) s m).
Definition get_registers (s : ms) (m : nat) : list nat := get (collect (fun m => map fst (p_regs (mp s m))) (S (nb s)) s m).
Definition tree (s : ms) (m : nat) : list nat := get (collect (fun m => [m]) (S (nb s)) s m).

(** ** Changes *)
(** Xinit_address_mapX: 112-114 for a map and all below; the rest is in RegMapModel *)
Definition mark (x : amap) : amap :=
  AMap (p_blk x) (p_par x) (p_sub x)
    (map (fun y => (fst y, Info (i_rights (snd y)) (i_unmapped (snd y)) (i_front (snd y)) true)) (p_regs x))
    (p_seq x) (p_adp x) (p_auto x) (p_check x).
Definition init_map (s : ms) (m : nat) : ms := fold_left (fun s c => set_mp s c (mark (mp s c))) (tree s m) s.
(** 1302-1304 *)
Definition check_on (on : bool) (x : amap) : amap :=
  AMap (p_blk x) (p_par x) (p_sub x) (p_regs x) (p_seq x) (p_adp x) (p_auto x) on.
Definition set_check (s : ms) (m : nat) (on : bool) : ms := fold_left (fun s c => set_mp s c (check_on on (mp s c))) (tree s m) s.

(** uvm_reg_block.py 309-320 *)
Definition lock_one (x : block) : block := Block (b_par x) (b_kids x) true (b_maps x) (b_def x).
Fixpoint lock_down (fuel : nat) (s : ms) (b : nat) : option ms :=
  match fuel with
  | O => None
  | S k =>
      if b_lock (bl s b) then Some s
      else fold_left (fun o c => match o with Some s => lock_down k s c | None => None end)
             (b_kids (bl s b)) (Some (set_bl s b (lock_one (bl s b))))
  end.

Inductive out :=
| OErr                       (* uvm_error, nothing done *)
| OAttr                      (* AttributeError *)
| OLoop                      (* does not end *)
| OAdded (m r : nat)         (* the register is in the map now *)
| OJoined (p c : nat).       (* [c] is a submap of [p] now *)
Inductive label :=
| LBlock (p : option nat)                              (* a new block, configure(parent) *)
| LMap (b : nat)                                       (* create_map *)
| LReg (b : nat)                                       (* a new register, configure(block) *)
| LAdd (m r rights : nat) (unmapped front : bool)      (* map.add_reg *)
| LSub (m c : nat)                                     (* map.add_submap *)
| LSeqr (m : nat) (q a : option nat)                   (* map.set_sequencer, an adapter or None *)
| LAuto (m : nat) (on : bool)                          (* map.set_auto_predict *)
| LCheck (m : nat) (on : bool)                         (* map.set_check_on_read *)
| LDefault (b m : nat)                                 (* block.set_default_map *)
| LLock (b : nat).                                     (* block.lock_model *)

Definition new_block (s : ms) (p : option nat) : ms :=
  MS (S (nb s)) (upd (bl s) (nb s) (Block p [] false [] None)) (nm s) (mp s) (nr s) (rg s).
(** uvm_reg_block.py 116-118, 219-230: the parent is stored also when add_block refuses *)
Definition add_block (s : ms) (p : option nat) : ms * list out :=
  let c := nb s in
  let s := new_block s p in
  match p with
  | None => (s, [])
  | Some p =>
      let x := bl s p in
      if b_lock x then (s, [OErr])
      else (set_bl s p (Block (b_par x) (b_kids x ++ [c]) (b_lock x) (b_maps x) (b_def x)), [])
  end.
(** uvm_reg_block.py 148-158; uvm_reg_map.py 259-284 *)
Definition create_map (s : ms) (b : nat) : ms * list out :=
  let x := bl s b in
  if b_lock x then (s, [OErr])
  else
    let m := nm s in
    let d := match b_maps x with [] => Some m | _ => b_def x end in
    (MS (nb s) (upd (bl s) b (Block (b_par x) (b_kids x) (b_lock x) (b_maps x ++ [m]) d)) (S m)
        (upd (mp s) m (AMap b None [] [] None None false true)) (nr s) (rg s), []).
(** uvm_reg_map.py 359-376 *)
Definition add_reg (s : ms) (m r rights : nat) (unmapped front : bool) : ms * list out :=
  let x := mp s m in
  if memb r (map fst (p_regs x)) then (s, [OErr])
  else if negb (Nat.eqb (r_blk (rg s r)) (p_blk x)) then (s, [OErr])
  else
    let s := set_rg s r (AReg (r_blk (rg s r)) (if memb m (r_maps (rg s r)) then r_maps (rg s r) else r_maps (rg s r) ++ [m])) in
    (set_mp s m (AMap (p_blk x) (p_par x) (p_sub x) (p_regs x ++ [(r, Info rights unmapped front false)])
                   (p_seq x) (p_adp x) (p_auto x) (p_check x)), [OAdded m r]).
(** 467-506, 636-638, 554-557. The message of 489 is put together from None. *)
Definition add_submap (s : ms) (m c : nat) : ms * list out :=
  match p_par (mp s c) with
  | Some _ => (s, [OErr])
  | None =>
      match reaches (S (nb s)) s (Some (p_blk (mp s c))) (p_blk (mp s m)) with
      | None => (s, [OLoop])
      | Some false => (s, [OAttr])
      | Some true =>
          let y := mp s c in
          let s := set_mp s c (AMap (p_blk y) (Some m) (p_sub y) (p_regs y) (p_seq y) (p_adp y) (p_auto y) (p_check y)) in
          let x := mp s m in
          let subs := if memb c (p_sub x) then p_sub x else p_sub x ++ [c] in
          let s := set_mp s m (AMap (p_blk x) (p_par x) subs (p_regs x) (p_seq x) (p_adp x) (p_auto x) (p_check x)) in
          (if b_lock (bl s (p_blk x)) then init_map s (root s m) else s, [OJoined m c])
      end
  end.
(** uvm_reg_block.py 309-334 *)
Definition lock_model (s : ms) (b : nat) : ms * list out :=
  if b_lock (bl s b) then (s, [])
  else
    match lock_down (S (nb s)) s b with
    | None => (s, [OLoop])
    | Some s => (match b_par (bl s b) with None => fold_left init_map (b_maps (bl s b)) s | Some _ => s end, [])
    end.
(** 523-534 *)
Definition set_sequencer (s : ms) (m : nat) (q a : option nat) : ms * list out :=
  match q with
  | None => (s, [OErr])
  | Some _ =>
      let x := mp s m in
      (set_mp s m (AMap (p_blk x) (p_par x) (p_sub x) (p_regs x) q a (p_auto x) (p_check x)), [])
  end.

(** Calls are made on objects that exist. *)
Definition exist (s : ms) (l : label) : bool :=
  match l with
  | LBlock None => true
  | LBlock (Some b) | LMap b | LReg b | LLock b => b <? nb s
  | LAdd m r _ _ _ => (m <? nm s) && (r <? nr s)
  | LSub m c => (m <? nm s) && (c <? nm s)
  | LSeqr m _ _ | LAuto m _ | LCheck m _ => m <? nm s
  | LDefault b m => (b <? nb s) && (m <? nm s)
  end.
Definition step (s : ms) (l : label) : ms * list out :=
  if negb (exist s l) then (s, [])
  else
    match l with
    | LBlock p => add_block s p
    | LMap b => create_map s b
    | LReg b => (MS (nb s) (bl s) (nm s) (mp s) (S (nr s)) (upd (rg s) (nr s) (AReg b [])), [])
    | LAdd m r rights u f => add_reg s m r rights u f
    | LSub m c => add_submap s m c
    | LSeqr m q a => set_sequencer s m q a
    | LAuto m on =>
        let x := mp s m in
        (set_mp s m (AMap (p_blk x) (p_par x) (p_sub x) (p_regs x) (p_seq x) (p_adp x) on (p_check x)), [])
    | LCheck m on => (set_check s m on, [])
    | LDefault b m =>
        let x := bl s b in
        (set_bl s b (Block (b_par x) (b_kids x) (b_lock x) (b_maps x) (Some m)), [])
    | LLock b => lock_model s b
    end.
Definition init : ms :=
  MS 0 (fun _ => Block None [] false [] None) 0 (fun _ => AMap 0 None [] [] None None false true) 0 (fun _ => AReg 0 []).
Definition run (ls : list label) : ms * list out := run_machine step init ls.

(** ** Questions *)
(** uvm_reg.py 336-346 *)
Definition is_in_map (s : ms) (r m : nat) : bool :=
  memb m (r_maps (rg s r)) || existsb (fun l => memb m (ups s l)) (r_maps (rg s r)).
(** 375-389, the map not None *)
Definition local_map (s : ms) (r m : nat) : option nat :=
  if memb m (r_maps (rg s r)) then Some m else find (fun l => memb m (ups s l)) (r_maps (rg s r)).
(** 405-425 *)
Fixpoint by_block (s : ms) (r : nat) (ms : list nat) : option nat :=
  match ms with
  | [] => None
  | l :: ms =>
      match b_def (bl s (p_blk (mp s l))) with
      | Some d => match local_map s r d with Some x => Some x | None => by_block s r ms end
      | None => by_block s r ms
      end
  end.
Definition default_map (s : ms) (r : nat) : option nat :=
  match r_maps (rg s r) with
  | [] => None
  | [l] => Some l
  | l :: _ => match by_block s r (r_maps (rg s r)) with Some x => Some x | None => Some l end
  end.
Definition get_local_map (s : ms) (r : nat) (m : option nat) : option nat :=
  match m with Some m => local_map s r m | None => default_map s r end.
Definition info_of (s : ms) (m r : nat) : option info := option_map snd (find (fun x => Nat.eqb (fst x) r) (p_regs (mp s m))).

(** 1305-1330 and 1053, 1489: what an access through the front door of the map given goes
    through *)
Inductive access := AttrE | NotOk | Fatal | Via (local : nat).
Definition try_access (s : ms) (r : nat) (m : option nat) : access :=
  match get_local_map s r m with
  | None => match m with None => AttrE | Some _ => NotOk end           (* 1308-1313 *)
  | Some l =>
      match info_of s l r with
      | None => AttrE
      | Some i => if negb (i_init i) then Fatal else if negb (i_front i) && i_unmapped i then NotOk else Via l
      end
  end.
(** the sequencer and adapter used (uvm_reg_map.py 1622-1624), whether it predicts (uvm_reg.py
    1489, 1509) and whether it checks (1694) *)
Definition used_seqr (s : ms) (l : nat) : option nat := p_seq (mp s (root s l)).
Definition used_adapter (s : ms) (l : nat) : option nat := p_adp (mp s (root s l)).
Definition predicts (s : ms) (l : nat) : bool := p_auto (mp s (root s l)).
Definition checks (s : ms) (l : nat) : bool := p_check (mp s l).
(** uvm_reg.py 456-460; 0 is "RW"; None: uvm_fatal *)
Definition get_rights (s : ms) (r : nat) (m : option nat) : option nat :=
  match get_local_map s r m with
  | None => Some 0
  | Some l => match info_of s l r with Some i => if i_init i then Some (i_rights i) else None | None => None end
  end.
