(** How the driver and the sequences of a sequencer wait for each other:
    src/uvm/seq/uvm_sequencer_base.py m_select_sequence (742-762),
    m_wait_for_arbitration_completed (898-915), m_update_lists and set_value
    (1073-1086), m_wait_arb_not_equal (1089-1093), m_wait_for_available_sequence
    (1097-1120, 1149-1161); src/uvm/seq/uvm_sequencer.py stop_sequences (78-95),
    get_next_item, try_next_item, get, peek (98-231); wait() of src/uvm/base/sv.py
    (571-580).

    The state of the sequencer is that of SeqrModel and the work done between two
    awaits is done by its functions. Added are the event the processes sleep on,
    the two counters they compare, and where each process stands. There is one
    driver. cocotb's Event: set() sets a flag and wakes those asleep on it; wait()
    returns in the same time step when the flag is set; clear() clears the flag. *)
From Coq Require Import ZArith List Bool Arith.
From Verif Require Import Prelude SeqrModel.
Import ListNotations.
Local Open Scope nat_scope.

Inductive call := KNext | KPeek | KGet | KTry.

(** Where the driver is: not in a call; in wait_for_sequences (750, 139) before choosing;
    in 1092, asleep or woken; in wait_for_sequences after try_next_item chose (157); in
    the peek of the request fifo (122, 213, 231). *)
Inductive dst :=
| DIdle
| DNba (k : call)
| DWait (k : call) (woken : bool)
| DTried
| DFifo (k : call).

Record sel := Sel {
  sy : sqr;                           (* [ev sy] is the flag of m_event_value_changed *)
  lsize : nat;                        (* m_lock_arb_size *)
  asize : nat;                        (* m_arb_size *)
  wst : nat -> option (nat * bool);   (* the process waiting for a request: the m_lock_arb_size
                                         it saw (908), and whether it has been woken *)
  drv : dst;
  zero : bool;                        (* sequence_item_requested is the int 0, not False *)
  one : bool                          (* get_next_item_called is the int 1, not True *)
}.
Definition sel0 : sel := Sel sqr0 0 0 (fun _ => None) DIdle false false.

Inductive sout :=
| Ev (o : out)       (* as in SeqrModel *)
| Raised             (* the driver's call raises AttributeError *)
| NoItem             (* try_next_item returns nothing *)
| Blocked            (* error TRY_NEXT_BLOCKED *)
| Stopped            (* stop_sequences returned *)
| StopRaised.        (* stop_sequences raised *)

Definition set_sy (s : sel) y := Sel y (lsize s) (asize s) (wst s) (drv s) (zero s) (one s).
Definition set_drv (s : sel) d := Sel (sy s) (lsize s) (asize s) (wst s) d (zero s) (one s).
Definition set_wst (s : sel) w := Sel (sy s) (lsize s) (asize s) w (drv s) (zero s) (one s).
Definition set_asize (s : sel) a := Sel (sy s) (lsize s) a (wst s) (drv s) (zero s) (one s).
Definition set_zero (s : sel) z o := Sel (sy s) (lsize s) (asize s) (wst s) (drv s) z o.

(** Event.set() on those waiting for a grant and on the driver (those in
    wait_for_item_done are woken by set_value of SeqrModel). *)
Definition wake (s : sel) : sel :=
  Sel (sy s) (lsize s) (asize s)
    (fun r => match wst s r with Some (c, _) => Some (c, true) | None => None end)
    (match drv s with DWait k _ => DWait k true | d => d end) (zero s) (one s).
(** 1073-1086, [n] times: m_lock_arb_size is one more, and the event is set. *)
Definition update_lists (s : sel) (n : nat) : sel :=
  match n with
  | O => s
  | _ => wake (Sel (sy s) (lsize s + n) (asize s) (wst s) (drv s) (zero s) (one s))
  end.
(** Event.clear() *)
Definition clear (y : sqr) : sqr := set_wait y (done_sid y) false (iwait y).

Inductive slab :=
| SCore (l : lab)          (* a step of a sequence or of somebody else: see [passes] *)
| SGrant (r : nat)         (* the process waiting for request r runs *)
| SCall (k : call)         (* the driver calls *)
| SDrv (rv : nat -> Z) (rnd : nat)  (* the driver runs; rv: what is_relevant() returns *)
| SDone (rsp : option item)         (* the driver calls item_done *)
| SStop.                   (* stop_sequences *)

(** The steps of SeqrModel that are taken over as they are. *)
Definition passes (l : lab) : bool :=
  match l with
  | LStart _ | LSend _ _ _ | LWaitDone _ | LWakeDone _ | LClear | LArb _ | LOther _ | LPut _
  | LGet _ _ _ | LGetWake _ | LDepth _ _ | LHandler _ _ => true
  | _ => false
  end.

Section Sel.
Context (anc : nat -> list nat).

(** 1107-1112: some request that is not blocked has is_relevant() == 0. *)
Definition irrelevant (y : sqr) (rv : nat -> Z) : bool :=
  existsb (fun r => match r_kind r with
                    | KReq => negb (is_blocked anc y (r_seq r)) && (rv (r_seq r) =? 0)%Z
                    | KLock => false
                    end) (arbq y).

(** 765-803: is_relevant() == 1 *)
Definition relevant (rv : nat -> Z) (s : nat) : bool := (rv s =? 1)%Z.

(** 565-569 with m_find_sequence(-1) (1064-1067): any sequence registered. *)
Definition registered (y : sqr) : bool :=
  existsb (fun i => match reg y (Z.of_nat i) with Some _ => true | None => false end)
          (seq 0 (Z.to_nat (next_sid y))).

(** uvm_sequencer.py 120-121, 153-154, 212, 230: the flags after a request was chosen (or
    was there before). *)
Definition flags (k : call) (s : sel) : sel :=
  match k with
  | KNext => set_zero (set_sy s (set_flags (sy s) true true)) false false
  | KTry => set_zero (set_sy s (set_flags (sy s) true true)) false true
  | KPeek | KGet => set_zero (set_sy s (set_flags (sy s) true (called (sy s)))) false (one s)
  end.

(** The driver after its wait_for_sequences: 751-762, 1097-1120; uvm_sequencer.py 142-157.
    With an irrelevant request 1155 puts a coroutine that was not started into the list,
    and fork_join_any (sv.py 307) calls its join(), which it does not have. *)
Definition drv_choose (s : sel) (k : call) (rv : nat -> Z) (rnd : nat) : sel * list sout :=
  match choose anc (sy s) (relevant rv) rnd with
  | CExn => (set_drv s DIdle, [Ev OExn])
  | CFatal => (set_drv s DIdle, [Ev OFatal])
  | CSome i =>
      let '(y1, o) := select (sy s) i in
      let s1 := flags k (update_lists (set_sy s y1) 1) in
      (set_drv s1 (match k with KTry => DTried | _ => DFifo k end), map Ev o)
  | CNone =>
      match k with
      | KTry => (set_drv s DIdle, [NoItem])
      | _ =>
          let s1 := wake (set_asize (set_sy s (set_value (sy s))) (lsize s)) in
          if irrelevant (sy s) rv then (set_drv s1 DIdle, [Raised])
          else (set_drv s1 (DWait k true), [])
      end
  end.

(** uvm_sequencer.py 160-164, 122, 213-215, 231 *)
Definition drv_item (s : sel) (k : call) : sel * list sout :=
  match fifo (sy s) with
  | [] => match k with KTry => (set_drv s DIdle, [Blocked]) | _ => (s, []) end
  | x :: _ =>
      match k with
      | KGet => let '(y1, o) := item_done (sy s) None in
                (set_zero (set_drv (set_sy s y1) DIdle) false false, Ev (OItem x) :: map Ev o)
      | _ => (set_drv s DIdle, [Ev (OItem x)])
      end
  end.

Definition drv_run (s : sel) (rv : nat -> Z) (rnd : nat) : sel * list sout :=
  match drv s with
  | DIdle => (s, [])
  | DNba k => drv_choose s k rv rnd
  | DWait k true =>
      (* sv.py 576-580 *)
      let s1 := set_sy s (clear (sy s)) in
      if Nat.eqb (asize s) (lsize s) then (set_drv s1 (DWait k false), [])
      else (set_drv s1 (DNba k), [])
  | DWait k false => (s, [])
  | DTried => drv_item s KTry
  | DFifo k => drv_item s k
  end.

(** uvm_sequencer.py 111-118, 131-139, 210, 225 *)
Definition drv_call (s : sel) (k : call) : sel * list sout :=
  match drv s with
  | DIdle =>
      match k with
      | KNext =>
          let e := if called (sy s) && negb (one s) then [Ev OErrTwice] else [] in
          if negb (requested (sy s)) && negb (zero s) then (set_drv s (DNba k), e)
          else (set_drv (flags k s) (DFifo k), e)
      | KTry => if called (sy s) then (s, [Ev OErrTwice]) else (set_drv s (DNba k), [])
      | KPeek | KGet =>
          if requested (sy s) then (set_drv (flags k s) (DFifo k), []) else (set_drv s (DNba k), [])
      end
  | _ => (s, [])
  end.

(** The process waiting for a request, woken: 907-915 with sv.py 576-580. *)
Definition grant_run (s : sel) (r : nat) : sel * list sout :=
  match wst s r with
  | Some (c, true) =>
      let s1 := set_sy s (clear (sy s)) in
      if Nat.eqb c (lsize s) then (set_wst s1 (upd (wst s) r (Some (c, false))), [])
      else let '(y1, o) := granted (sy s1) r in
           match o with
           | [] => (set_wst s1 (upd (wst s) r (Some (lsize s, false))), [])
           | _ => (set_wst (set_sy s1 y1) (upd (wst s) r None), map Ev o)
           end
  | _ => (s, [])
  end.

Definition sstep (s : sel) (l : slab) : sel * list sout :=
  match l with
  | SCore (LRequest q lk) =>
      (* 411-437. The event has just been set, so the wait at 914 returns at once. *)
      let '(y1, o) := request (sy s) q lk in
      let s1 := update_lists (set_sy s y1) 1 in
      (set_wst s1 (upd (wst s1) (next_rid y1 - 1) (Some (lsize s1, true))), map Ev o)
  | SCore (LExit q) =>
      (* 937-978: one m_update_lists for each request and lock removed *)
      let n := length (filter (gone anc (sy s) q) (arbq (sy s)))
               + length (filter (fun l => Nat.eqb l q || is_child anc q l) (locks (sy s))) in
      let '(y1, o) := remove_seq anc (sy s) q in
      (update_lists (set_sy s y1) n, map Ev o)
  | SCore l =>
      if passes l then let '(y1, o) := step anc (sy s) l in (set_sy s y1, map Ev o) else (s, [])
  | SGrant r => grant_run s r
  | SCall k => drv_call s k
  | SDrv rv rnd => drv_run s rv rnd
  | SDone rsp =>
      let '(y1, o) := item_done (sy s) rsp in
      (set_zero (set_sy s y1) false false, map Ev o)
  | SStop =>
      (* 567-568: kill_sequence is given a sequence id, which raises *)
      if registered (sy s) then (s, [StopRaised])
      else (set_zero (set_sy s (set_fifo (set_flags (sy s) false false) [])) true false, [Stopped])
  end.
End Sel.
