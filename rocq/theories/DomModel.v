(** Model of the queries on phases and of the domains, src/uvm/base/uvm_phase.py: names, schedule
    and domain of a phase (588-668), find and find_by_name (336-366, 1002-1085), wait_for_state
    (896-926); uvm_domain.py (94-203) and define_domain of uvm_component.py (1002-1046).

    The phases of a graph are numbered; the graph itself and what add() does to it is in
    PhaseGraphModel. The phase objects of type UVM_PHASE_IMP, which are in no graph, have their
    own numbers. A result None of a function with a bound means that the Python function does not
    return. Debug output and traces are left out. *)
From Coq Require Import ZArith List Bool Arith Ascii String.
From Verif Require Import Prelude PhaseGraphModel.
Import ListNotations.
Local Open Scope nat_scope.
Local Open Scope list_scope.

(** uvm_object_globals.py 413-417, without UVM_PHASE_IMP *)
Inductive kind := NODE | TERMINAL | SCHEDULE | DOMAIN.
Definition kind_eqb (a b : kind) : bool :=
  match a, b with NODE, NODE | TERMINAL, TERMINAL | SCHEDULE, SCHEDULE | DOMAIN, DOMAIN => true | _, _ => false end.
(** kd: m_phase_type; nm: get_name(); par: m_parent; im: m_imp *)
Record info := Info { kd : nat -> kind; nm : nat -> string; par : nat -> option nat; im : nat -> option nat }.
Definition oeqb (a b : option nat) : bool := match a, b with Some x, Some y => Nat.eqb x y | None, None => true | _, _ => false end.

Section Info.
Context (i : info).
Definition is_kind (k : kind) (n : nat) : bool := kind_eqb (kd i n) k.

(** *** Names *)
(** 605-608; also the loop of 629-631 *)
Fixpoint climb (fuel n : nat) : option nat :=
  match fuel with
  | O => None
  | S f => match par i n with Some p => if is_kind SCHEDULE p then climb f p else Some n | None => Some n end
  end.
(** 603-615. Line 612 looks at the parent of the phase itself, not of [sched]. *)
Definition get_schedule (fuel : nat) (hier : bool) (n : nat) : option (option nat) :=
  match (if hier then climb fuel n else Some n) with
  | None => None
  | Some sched =>
      Some (match kd i sched with
            | SCHEDULE => Some sched
            | NODE => match par i n with Some p => if is_kind DOMAIN p then None else Some p | None => None end
            | _ => None
            end)
  end.
(** 641-647 *)
Fixpoint get_domain (fuel n : nat) : option (option nat) :=
  match fuel with
  | O => None
  | S f => if is_kind DOMAIN n then Some (Some n) else match par i n with Some p => get_domain f p | None => Some None end
  end.
(** 629-636, [s]: the string so far *)
Fixpoint sched_name (fuel : nat) (sched : nat) (s : string) : option string :=
  match fuel with
  | O => None
  | S f =>
      match par i sched with
      | Some p =>
          if negb (Nat.eqb p sched) && is_kind SCHEDULE p
          then sched_name f p (String.append (nm i p) (String.append (match s with EmptyString => "" | _ => "." end) s))
          else Some s
      | None => Some s
      end
  end.
(** 622-636 *)
Definition get_schedule_name (fuel : nat) (hier : bool) (n : nat) : option string :=
  match get_schedule fuel hier n with
  | None => None
  | Some None => Some ""%string
  | Some (Some sched) => sched_name fuel sched (nm i sched)
  end.
(** 664-668 *)
Definition get_domain_name (fuel n : nat) : option string :=
  match get_domain fuel n with
  | None => None
  | Some None => Some "unknown"%string
  | Some (Some d) => Some (nm i d)
  end.
(** 588-597 *)
Definition get_full_name (fuel n : nat) : option string :=
  match get_domain_name fuel n, get_schedule_name fuel false n with
  | Some d, Some sch =>
      let s := match sch with EmptyString => d | _ => String.append d (String.append "." sch) end in
      Some (if is_kind DOMAIN n || is_kind SCHEDULE n then s else String.append s (String.append "." (nm i n)))
  | _, _ => None
  end.

(** *** Searches. [asked]: a phase of the graph or an IMP *)
Inductive asked := QNode (n : nat) | QImp (p : nat).
(** 360, 1009, 1040 *)
Definition matches (q : asked) (n : nat) : bool :=
  match q with QNode m => Nat.eqb m n | QImp p => oeqb (im i n) (Some p) end.
(** 1020-1022 and 1049-1051: None if the domain is not found in [fuel] steps *)
Definition in_scope (fuel : nat) (stay : bool) (orig m : nat) : option bool :=
  if negb stay then Some true
  else match get_schedule fuel false m, get_schedule fuel false orig with
       | Some a, Some b =>
           if oeqb a b then Some true
           else match get_domain fuel m, get_domain fuel orig with
                | Some a, Some b => Some (oeqb a b)
                | _, _ => None
                end
       | _, _ => None
       end.
(** The first element that is in scope. *)
Fixpoint first_in (fuel : nat) (stay : bool) (orig : nat) (l : list nat) : option (option nat) :=
  match l with
  | [] => Some None
  | m :: t => match in_scope fuel stay orig m with None => None | Some true => Some (Some m) | Some false => first_in fuel stay orig t end
  end.
(** 1002-1027 and 1033-1054: the search goes on with the first neighbour in scope, and with no
    other. *)
Fixpoint m_find (fuel : nat) (stay : bool) (orig : nat) (nbr : nat -> list nat) (q : asked) (n : nat) : option (option nat) :=
  match fuel with
  | O => None
  | S f =>
      if matches q n then Some (Some n)
      else match first_in fuel stay orig (nbr n) with
           | None => None
           | Some None => Some None
           | Some (Some m) => m_find f stay orig nbr q m
           end
  end.
(** 351-366; [FSame]: the argument itself is returned (361) *)
Inductive found := FSame | FNode (n : nat) | FNone.
Definition find (fuel : nat) (stay : bool) (succ pred : nat -> list nat) (q : asked) (n : nat) : option found :=
  if matches q n then Some FSame
  else match m_find fuel stay n pred q n with
       | None => None
       | Some (Some m) => Some (FNode m)
       | Some None => match m_find fuel stay n succ q n with None => None | Some (Some m) => Some (FNode m) | Some None => Some FNone end
       end.
(** 1058-1085: all the neighbours in scope, in their order, until the name is found *)
Fixpoint m_find_name (fuel : nat) (stay : bool) (orig : nat) (nbr : nat -> list nat) (name : string) (n : nat) : option (option nat) :=
  match fuel with
  | O => None
  | S f =>
      if String.eqb (nm i n) name then Some (Some n)
      else (fix go (l : list nat) : option (option nat) :=
              match l with
              | [] => Some None
              | m :: t =>
                  match in_scope fuel stay orig m with
                  | None => None
                  | Some false => go t
                  | Some true => match m_find_name f stay orig nbr name m with None => None | Some (Some r) => Some (Some r) | Some None => go t end
                  end
              end) (nbr n)
  end.
(** 336-343 *)
Definition find_by_name (fuel : nat) (stay : bool) (succ pred : nat -> list nat) (name : string) (n : nat) : option (option nat) :=
  if String.eqb (nm i n) name then Some (Some n)
  else match m_find_name fuel stay n pred name n with
       | None => None
       | Some (Some m) => Some (Some m)
       | Some None => m_find_name fuel stay n succ name n
       end.
End Info.

(** *** wait_for_state *)
(** uvm_object_globals.py 511-516; another value of op raises (917) *)
Inductive cmp := UVM_LT | UVM_LTE | UVM_NE | UVM_EQ | UVM_GT | UVM_GTE.
(** 898-915, [st]: the argument, [m]: m_state *)
Definition holds (op : cmp) (st m : Z) : bool :=
  match op with
  | UVM_EQ => negb (Z.land st m =? 0)
  | UVM_NE => Z.land st m =? 0
  | UVM_GTE => st <=? m
  | UVM_LT => m <? st
  | UVM_LTE => m <=? st
  | UVM_GT => st <? m
  end%Z.
(** A process that called wait_for_state: blocked in the wait() of the event, or released from
    it and about to run (925-926). *)
Inductive wmode := Blocked | Released.
Record waiter := Waiter { wid : nat; wop : cmp; wst : Z; wmd : wmode }.
(** ev: m_phase_set_state_event is set *)
Record wstate := WState { m_state : Z; ev : bool; ws : list waiter }.
Inductive wlab := Call (p : nat) (op : cmp) (st : Z) | Set_state (st : Z) | Sched (p : nat).
Inductive wout := Returns (p : nat).
Definition release (w : waiter) : waiter := Waiter (wid w) (wop w) (wst w) Released.
(** 299-305; 896-926. Call: 922-923 up to the end of the first uninterrupted piece; a process in
    a call does not call again. Sched: the next uninterrupted piece, 924-926 and back to 923; after
    924 the event is not set, so the process blocks. *)
Definition wstep (s : wstate) (l : wlab) : wstate * list wout :=
  match l with
  | Call p op st =>
      if existsb (fun w => Nat.eqb (wid w) p) (ws s) then (s, [])
      else (WState (m_state s) (ev s) (ws s ++ [Waiter p op st (if ev s then Released else Blocked)]), [])
  | Set_state st => (WState st true (map release (ws s)), [])
  | Sched p =>
      match List.find (fun w => Nat.eqb (wid w) p) (ws s) with
      | Some (Waiter _ op st Released) =>
          if holds op st (m_state s)
          then (WState (m_state s) false (filter (fun w => negb (Nat.eqb (wid w) p)) (ws s)), [Returns p])
          else (WState (m_state s) false (map (fun w => if Nat.eqb (wid w) p then Waiter p op st Blocked else w) (ws s)), [])
      | _ => (s, [])
      end
  end.
(** A node that was added to a schedule: 227, 574 *)
Definition winit (st : Z) : wstate := WState st false [].

(** *** Domains *)
(** The graph, the phases, the number of the next phase, and m_end_node *)
Record ds := DS { gr : pg; inf : info; cnt : nat; endn : nat -> nat }.
(** 224-262: one object *)
Definition info_add (i : info) (n : nat) (k : kind) (name : string) (p : option nat) (im0 : option nat) : info :=
  Info (upd (kd i) n k) (upd (nm i) n name) (upd (par i) n p) (upd (im i) n im0).
(** 273-278: a schedule or domain without parent, with its end node *)
Definition new_sched (s : ds) (k : kind) (name : string) : ds :=
  let b := cnt s in let e := S (cnt s) in
  DS (new_schedule (gr s) b e)
     (info_add (info_add (inf s) b k name None None) e TERMINAL (String.append name " end") (Some b) None)
     (S e) (upd (endn s) b e).
Definition lift (s : ds) (i : info) (c : nat) (r : res) : option ds := match r with Done g => Some (DS g i c (endn s)) | _ => None end.
(** 434-562 with an IMP and no other argument; None: an exception or a fatal error *)
Definition add_imp (s : ds) (top imp : nat) (name : string) : option ds :=
  let n := cnt s in
  lift s (info_add (inf s) n NODE name (Some top) (Some imp)) (S n) (add (new_node (gr s) n) top (endn s top) n n AtEnd).
Definition set_par (i : info) (n p : nat) : info := Info (kd i) (nm i) (upd (par i) n (Some p)) (im i).
(** 434-562 with the schedule or domain [b] *)
Definition add_part (s : ds) (top b : nat) (w : where_) : option ds :=
  lift s (set_par (inf s) b top) (cnt s) (add (gr s) top (endn s top) b (endn s b) w).
Fixpoint add_imps (s : ds) (top : nat) (l : list (nat * string)) : option ds :=
  match l with [] => Some s | (p, name) :: t => match add_imp s top p name with None => None | Some s => add_imps s top t end end.

(** The IMPs of uvm_common_phases.py and uvm_runtime_phases.py, in the order of 117-125 and
    164-175 *)
Definition common_phases : list (nat * string) :=
  [(0, "build"); (1, "connect"); (2, "end_of_elaboration"); (3, "start_of_simulation"); (4, "run");
   (5, "extract"); (6, "check"); (7, "report"); (8, "final")]%string.
Definition RUN := 4.
Definition runtime_phases : list (nat * string) :=
  [(9, "pre_reset"); (10, "reset"); (11, "post_reset"); (12, "pre_configure"); (13, "configure"); (14, "post_configure");
   (15, "pre_main"); (16, "main"); (17, "post_main"); (18, "pre_shutdown"); (19, "shutdown"); (20, "post_shutdown")]%string.
Definition COMMON := 0.
Definition d_find (fuel : nat) (s : ds) (stay : bool) (q : asked) (n : nat) : option found := find (inf s) fuel stay (Succ (gr s)) (Pred (gr s)) q n.
Definition d_find_by_name (fuel : nat) (s : ds) (stay : bool) (name : string) (n : nat) : option (option nat) := find_by_name (inf s) fuel stay (Succ (gr s)) (Pred (gr s)) name n.
(** 187-189 and uvm_component.py 1041-1043 *)
Definition add_uvm_sched (s : ds) (d : nat) : option ds :=
  let k := cnt s in
  match add_imps (new_sched s SCHEDULE "uvm_sched") k runtime_phases with None => None | Some s => add_part s d k AtEnd end.
(** 151-152 and uvm_component.py 1046, where with_phase is looked up by find (443-448) *)
Definition join_common (fuel : nat) (s : ds) (d : nat) : option ds :=
  match d_find fuel s true (QImp RUN) COMMON with Some (FNode r) => add_part s COMMON d (With r) | _ => None end.
Definition no_phase : ds := DS (PG (fun _ => 0) (fun _ => 0) (fun _ => []) 0 []) (Info (fun _ => NODE) (fun _ => ""%string) (fun _ => None) (fun _ => None)) 0 (fun _ => 0).
(** uvm_domain.py 94-154, 177-190: the common domain with the domain "uvm" *)
Definition get_common_domain (fuel : nat) : option ds :=
  match add_imps (new_sched no_phase DOMAIN "common") COMMON common_phases with
  | None => None
  | Some s =>
      let d := cnt s in
      match add_uvm_sched (new_sched s DOMAIN "uvm") d with None => None | Some s => join_common fuel s d end
  end.
(** uvm_component.py 1038-1046 *)
Definition define_domain (fuel : nat) (s : ds) (d : nat) : option ds :=
  match d_find_by_name fuel s true "uvm_sched" d with
  | None => None
  | Some (Some _) => Some s
  | Some None =>
      match add_uvm_sched s d with
      | None => None
      | Some s => match d_find fuel s false (QNode d) COMMON with None => None | Some FNone => join_common fuel s d | Some _ => Some s end
      end
  end.
(** uvm_domain.py 192-203, and define_domain as set_domain calls it for every component (989) *)
Inductive dlab := NewDomain (name : string) | SetDomain (d : nat).
Definition dstep (fuel : nat) (s : ds) (l : dlab) : option ds :=
  match l with NewDomain name => Some (new_sched s DOMAIN name) | SetDomain d => define_domain fuel s d end.
Fixpoint druns (fuel : nat) (s : ds) (ls : list dlab) : option ds :=
  match ls with [] => Some s | l :: t => match dstep fuel s l with None => None | Some s => druns fuel s t end end.
(** After get_common_domain, as uvm_root.py calls it *)
Definition std : ds := match get_common_domain 40 with Some s => s | None => no_phase end.
