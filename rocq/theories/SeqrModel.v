(** Model of the sequencer: src/uvm/seq/uvm_sequencer_base.py (arbitration),
    uvm_sequencer_param_base.py (requests and responses), uvm_sequencer.py (the
    driver's side), and the response queue of uvm_sequence_base.py.

    Sequences are numbers; [anc s] is the list of sequences obtained by following
    get_parent_sequence from [s]. An item is (sequence id, transaction id,
    payload); ids are integers, -1 meaning unset.

    A step is what one process does between two awaits. Not modelled: transaction
    recording, priorities (no arbitration mode that uses them is implemented),
    the bookkeeping of last requests/responses, default phase sequences, the wait
    for irrelevant sequences (1097-1174; here a driver that found nothing may try again
    at any time, SelModel.v models the waits). After try_next_item the flag is 1, which
    get_next_item does not take for True (uvm_sequencer.py 110): the report of a second
    call in between is a simplification here, SelModel.v has the test as written. A fatal report ends the call it occurs in (the default
    behaviour, uvm_root.py 340-358). *)
From Coq Require Import ZArith List Bool.
From Verif Require Import Prelude.
Import ListNotations.
Open Scope Z_scope.

Inductive rkind := KReq | KLock.

(** uvm_sequencer_base.py 1450-1460. The process status of a request (787) is the
    constant RUNNING of a fresh [process()] (sv.py 81-91), so the zombie checks of
    688-699 and 787-792 never fire. *)
Record req := Req { r_id : nat; r_kind : rkind; r_seq : nat; r_sid : Z }.

Record item := Item { i_sid : Z; i_tid : Z; i_pay : nat }.

(** A process inside get_base_response (uvm_sequence_base.py 1253-1284): waiting at
    1265 (None) or at 1283 with the size seen. *)
Record getter := Getter { g_seq : nat; g_tid : Z; g_size : option nat }.

Record sqr := Sqr {
  arbq : list req;                 (* arb_sequence_q *)
  locks : list nat;                (* lock_list *)
  completed : list nat;            (* keys of arb_completed *)
  waiting : list (nat * nat);      (* processes in 437: request id, sequence *)
  next_rid : nat;                  (* g_request_id *)
  next_sid : Z;                    (* g_sequence_id *)
  sid : nat -> Z;                  (* m_sqr_seq_ids[this sequencer], -1 if none *)
  reg : Z -> option nat;           (* reg_sequences *)
  sem : nat -> Z;                  (* m_wait_for_grant_semaphore *)
  arb : nat;                       (* m_arbitration: 0 FIFO, 2 RANDOM *)
  fifo : list item;                (* m_req_fifo, of size 1 *)
  requested : bool;                (* sequence_item_requested *)
  called : bool;                   (* get_next_item_called *)
  done_sid : Z;                    (* m_wait_for_item_sequence_id *)
  ev : bool;                       (* m_event_value_changed is set *)
  iwait : nat -> option bool;      (* in wait_for_item_done; Some true: woken *)
  respq : nat -> list item;        (* response_queue *)
  depth : nat -> Z;                (* response_queue_depth *)
  handler : nat -> bool;           (* m_use_response_handler *)
  getters : nat -> option getter   (* by process *)
}.

Definition sqr0 : sqr :=
  Sqr [] [] [] [] 0 1 (fun _ => -1) (fun _ => None) (fun _ => 0) 0 [] false false
    0 false (fun _ => None) (fun _ => []) (fun _ => 8) (fun _ => false) (fun _ => None).

Inductive out :=
| ORequested (r s : nat)           (* an item request *)
| OLockRequested (r s : nat)
| OSelected (r s : nat)            (* arbitration chose it *)
| OGranted (r s : nat)             (* wait_for_grant returned *)
| ORemoved (r : nat)
| OSent (s : nat) (x : item)
| OItem (x : item)                 (* the driver's get_next_item / peek returned it *)
| OTaken (x : item)                (* item_done took it *)
| ODoneSeen (s : nat)              (* wait_for_item_done returned *)
| OQueued (s : nat) (x : item)     (* response stored *)
| ODropped (s : nat) (x : item)    (* response queue full *)
| OHandled (s : nat) (x : item)    (* given to response_handler *)
| OUnknown (x : item)              (* no such sequence *)
| OGot (p s : nat) (x : item)      (* get_response returned x *)
| OCleared (s : nat)               (* response queue emptied *)
| OErrTwice | OOverflow | OFatal | OExn.

(** ** Setters *)
Definition set_arbq (y : sqr) q := Sqr q (locks y) (completed y) (waiting y) (next_rid y)
  (next_sid y) (sid y) (reg y) (sem y) (arb y) (fifo y) (requested y) (called y) (done_sid y)
  (ev y) (iwait y) (respq y) (depth y) (handler y) (getters y).
Definition set_locks (y : sqr) l := Sqr (arbq y) l (completed y) (waiting y) (next_rid y)
  (next_sid y) (sid y) (reg y) (sem y) (arb y) (fifo y) (requested y) (called y) (done_sid y)
  (ev y) (iwait y) (respq y) (depth y) (handler y) (getters y).
Definition set_completed (y : sqr) c := Sqr (arbq y) (locks y) c (waiting y) (next_rid y)
  (next_sid y) (sid y) (reg y) (sem y) (arb y) (fifo y) (requested y) (called y) (done_sid y)
  (ev y) (iwait y) (respq y) (depth y) (handler y) (getters y).
Definition set_waiting (y : sqr) w n := Sqr (arbq y) (locks y) (completed y) w n
  (next_sid y) (sid y) (reg y) (sem y) (arb y) (fifo y) (requested y) (called y) (done_sid y)
  (ev y) (iwait y) (respq y) (depth y) (handler y) (getters y).
Definition set_ids (y : sqr) n i r := Sqr (arbq y) (locks y) (completed y) (waiting y)
  (next_rid y) n i r (sem y) (arb y) (fifo y) (requested y) (called y) (done_sid y)
  (ev y) (iwait y) (respq y) (depth y) (handler y) (getters y).
Definition set_sem (y : sqr) s := Sqr (arbq y) (locks y) (completed y) (waiting y)
  (next_rid y) (next_sid y) (sid y) (reg y) s (arb y) (fifo y) (requested y) (called y)
  (done_sid y) (ev y) (iwait y) (respq y) (depth y) (handler y) (getters y).
Definition set_arb (y : sqr) a := Sqr (arbq y) (locks y) (completed y) (waiting y)
  (next_rid y) (next_sid y) (sid y) (reg y) (sem y) a (fifo y) (requested y) (called y)
  (done_sid y) (ev y) (iwait y) (respq y) (depth y) (handler y) (getters y).
Definition set_fifo (y : sqr) f := Sqr (arbq y) (locks y) (completed y) (waiting y)
  (next_rid y) (next_sid y) (sid y) (reg y) (sem y) (arb y) f (requested y) (called y)
  (done_sid y) (ev y) (iwait y) (respq y) (depth y) (handler y) (getters y).
Definition set_flags (y : sqr) r c := Sqr (arbq y) (locks y) (completed y) (waiting y)
  (next_rid y) (next_sid y) (sid y) (reg y) (sem y) (arb y) (fifo y) r c
  (done_sid y) (ev y) (iwait y) (respq y) (depth y) (handler y) (getters y).
Definition set_wait (y : sqr) d e w := Sqr (arbq y) (locks y) (completed y) (waiting y)
  (next_rid y) (next_sid y) (sid y) (reg y) (sem y) (arb y) (fifo y) (requested y) (called y)
  d e w (respq y) (depth y) (handler y) (getters y).
Definition set_resp (y : sqr) q d h g := Sqr (arbq y) (locks y) (completed y) (waiting y)
  (next_rid y) (next_sid y) (sid y) (reg y) (sem y) (arb y) (fifo y) (requested y) (called y)
  (done_sid y) (ev y) (iwait y) q d h g.

(** 1083-1086: setting a watched value wakes everybody waiting for the event. *)
Definition set_value (y : sqr) : sqr :=
  set_wait y (done_sid y) true
    (fun s => match iwait y s with Some _ => Some true | None => None end).

Section Sqr.
  Context (anc : nat -> list nat).

  (** 140-164 *)
  Definition is_child (p c : nat) : bool := existsb (Nat.eqb p) (anc c).

  (** 477-502 *)
  Definition is_blocked (y : sqr) (s : nat) : bool :=
    existsb (fun l => negb (Nat.eqb l s) && negb (is_child l s)) (locks y).

  (** 679-740. When the first entry is a lock request, 717 takes a slice of a
      UVMQueue, which raises TypeError (uvm_queue.py 139-144). *)
  Definition lock_first (y : sqr) : bool :=
    match arbq y with r :: _ => match r_kind r with KLock => true | KReq => false end | [] => false end.

  (** 1023-1037 *)
  Definition register (y : sqr) (s : nat) : sqr :=
    if sid y s >? 0 then y
    else set_ids y (next_sid y + 1) (upd (sid y) s (next_sid y))
           (fun i => if i =? next_sid y then Some s else reg y i).

  (** 382-433 *)
  Definition request (y : sqr) (s : nat) (lk : bool) : sqr * list out :=
    let y := register y s in
    let n := next_rid y in
    let n2 := if lk then S n else n in
    let q := if lk then arbq y ++ [Req n KLock s (sid y s)] else arbq y in
    (set_value (set_waiting (set_arbq y (q ++ [Req n2 KReq s (sid y s)]))
                            (waiting y ++ [(n2, s)]) (S n2)),
     (if lk then [OLockRequested n s] else []) ++ [ORequested n2 s]).

  (** 898-915, 442: the process waiting for request [r] looks. *)
  Definition granted (y : sqr) (r : nat) : sqr * list out :=
    match find (fun p => Nat.eqb (fst p) r) (waiting y) with
    | Some (_, s) =>
        if existsb (Nat.eqb r) (completed y)
        then (set_sem (set_waiting (set_completed y (filter (fun x => negb (Nat.eqb x r)) (completed y)))
                         (filter (fun p => negb (Nat.eqb (fst p) r)) (waiting y)) (next_rid y))
                (upd (sem y) s (sem y s + 1)), [OGranted r s])
        else (y, [])
    | None => (y, [])
    end.

  (** 786-802: positions of the requests that may be chosen. *)
  Fixpoint avail (y : sqr) (rel : nat -> bool) (i : nat) (q : list req) : list nat :=
    match q with
    | [] => []
    | r :: q' =>
        match r_kind r with
        | KReq => if negb (is_blocked y (r_seq r)) && rel (r_seq r)
                  then i :: avail y rel (S i) q' else avail y rel (S i) q'
        | KLock => avail y rel (S i) q'
        end
    end.

  Inductive choice := CNone | CSome (i : nat) | CFatal | CExn.

  (** 765-895; [rnd] is the random draw. 815-824 re-checks what 796 checked. *)
  Definition choose (y : sqr) (rel : nat -> bool) (rnd : nat) : choice :=
    if lock_first y then CExn
    else
      match avail y rel 0 (arbq y) with
      | [] => CNone
      | i :: l =>
          if Nat.eqb (arb y) 0 then CSome i
          else match l with
               | [] => CSome i
               | _ => if Nat.eqb (arb y) 2
                      then match nth_error (i :: l) rnd with Some j => CSome j | None => CFatal end
                      else CFatal
               end
      end.

  Fixpoint remove_nth {A} (i : nat) (l : list A) : list A :=
    match l, i with
    | [], _ => []
    | _ :: l', O => l'
    | a :: l', S i' => a :: remove_nth i' l'
    end.

  (** 757-762 *)
  Definition select (y : sqr) (i : nat) : sqr * list out :=
    match nth_error (arbq y) i with
    | Some r => (set_value (set_arbq (set_completed y (r_id r :: completed y))
                                     (remove_nth i (arbq y))),
                 [OSelected (r_id r) (r_seq r)])
    | None => (y, [])
    end.

  (** 742-762, one round; the boolean says that the driver goes on. A round that
      finds nothing sets m_arb_size (1105). *)
  Definition try_select (y : sqr) (rel : nat -> bool) (rnd : nat) : sqr * list out * bool :=
    match choose y rel rnd with
    | CExn => (y, [OExn], false)
    | CFatal => (y, [OFatal], false)
    | CNone => (set_value y, [], false)
    | CSome i => let '(y1, o) := select y i in (y1, o, true)
    end.

  (** 937-978 *)
  Definition gone (y : sqr) (s : nat) (r : req) : bool :=
    (r_sid r =? sid y s) || is_child s (r_seq r).
  Definition remove_seq (y : sqr) (s : nat) : sqr * list out :=
    let rem := filter (gone y s) (arbq y) in
    let lrem := filter (fun l => Nat.eqb l s || is_child s l) (locks y) in
    let y1 := set_locks (set_arbq y (filter (fun r => negb (gone y s r)) (arbq y)))
                (filter (fun l => negb (Nat.eqb l s || is_child s l)) (locks y)) in
    let y2 := match rem, lrem with [], [] => y1 | _, _ => set_value y1 end in
    (set_ids y2 (next_sid y2) (sid y2)
       (fun i => if i =? sid y s then None else reg y2 i),
     map (fun r => ORemoved (r_id r)) rem).

  (** uvm_sequence_base.py 317, 336-342: a sequence is started. *)
  Definition start (y : sqr) (s : nat) : sqr * list out :=
    let y := set_resp y (upd (respq y) s []) (depth y) (handler y) (getters y) in
    let y := set_ids y (next_sid y) (upd (sid y) s (-1)) (reg y) in
    (register y s, [OCleared s]).

  (** uvm_sequencer_param_base.py 92-133. [t] is the transaction id the item gets. *)
  Definition send_request (y : sqr) (s : nat) (tid : Z) (pay : nat) : sqr * list out :=
    if sem y s <? 1 then (y, [OFatal])
    else
      let y := set_sem y (upd (sem y) s (sem y s - 1)) in
      let x := Item (sid y s) tid pay in
      match fifo y with
      | _ :: _ => (y, [OOverflow; OFatal])
      | [] => (set_fifo y [x], OSent s x :: if lock_first y then [OExn] else [])
      end.

  (** uvm_sequence_base.py 1228-1240 *)
  Definition put_base (y : sqr) (s : nat) (x : item) : sqr * list out :=
    if (depth y s =? -1) || (Z.of_nat (length (respq y s)) <? depth y s)
    then (set_resp y (upd (respq y) s (respq y s ++ [x])) (depth y) (handler y) (getters y),
          [OQueued s x])
    else (y, [ODropped s x]).

  (** uvm_sequencer_param_base.py 294-324 *)
  Definition put_response (y : sqr) (x : item) : sqr * list out :=
    if i_sid x =? -1 then (y, [OFatal])
    else match reg y (i_sid x) with
         | Some s => if handler y s then (y, [OHandled s x]) else put_base y s x
         | None => (y, [OUnknown x])
         end.

  (** uvm_sequencer.py 166-189. After the fatal report nothing else happens. 182 does
      not go through set_value. *)
  Definition item_done (y : sqr) (rsp : option item) : sqr * list out :=
    let y := set_flags y false false in
    match fifo y with
    | [] => (y, [OFatal])
    | x :: f =>
        let y := set_wait (set_fifo y f) (i_sid x) (ev y) (iwait y) in
        let '(y1, o) := match rsp with Some t => put_response y t | None => (y, []) end in
        if existsb (fun e => match e with OFatal => true | _ => false end) o
        then (y1, OTaken x :: o)
        else (y1, OTaken x :: o ++ if lock_first y1 then [OExn] else [])
    end.

  (** uvm_sequence_base.py 1273-1283: look for the first item with this id. *)
  Fixpoint take_tid (t : Z) (q : list item) : option (item * list item) :=
    match q with
    | [] => None
    | x :: q' => if i_tid x =? t then Some (x, q')
                 else match take_tid t q' with
                      | Some (z, q'') => Some (z, x :: q'')
                      | None => None
                      end
    end.
  (** 1268-1284 with a queue seen not empty, or of a new size. *)
  Definition get_scan (y : sqr) (p s : nat) (t : Z) : sqr * list out :=
    if t =? -1 then
      match respq y s with
      | x :: q => (set_resp y (upd (respq y) s q) (depth y) (handler y) (upd (getters y) p None),
                   [OGot p s x])
      | [] => (y, [OExn])
      end
    else
      match take_tid t (respq y s) with
      | Some (x, q) => (set_resp y (upd (respq y) s q) (depth y) (handler y) (upd (getters y) p None),
                        [OGot p s x])
      | None => (set_resp y (respq y) (depth y) (handler y)
                   (upd (getters y) p (Some (Getter s t (Some (length (respq y s)))))), [])
      end.
  (** 1253-1266 *)
  Definition get_call (y : sqr) (p s : nat) (t : Z) : sqr * list out :=
    match respq y s with
    | [] => (set_resp y (respq y) (depth y) (handler y)
               (upd (getters y) p (Some (Getter s t None))), [])
    | _ => get_scan y p s t
    end.
  (** The process looks again: sv.py 571-580, only goes on when the condition holds. *)
  Definition get_wake (y : sqr) (p : nat) : sqr * list out :=
    match getters y p with
    | None => (y, [])
    | Some g =>
        match g_size g with
        | None => match respq y (g_seq g) with
                  | [] => (y, [])
                  | _ => get_scan y p (g_seq g) (g_tid g)
                  end
        | Some n => if Nat.eqb (length (respq y (g_seq g))) n then (y, [])
                    else get_scan y p (g_seq g) (g_tid g)
        end
    end.

  Inductive lab :=
  | LStart (s : nat)
  | LRequest (s : nat) (lk : bool)
  | LGrant (r : nat)
  | LSend (s : nat) (tid : Z) (pay : nat)
  | LWaitDone (s : nat)                    (* wait_for_item_done is called *)
  | LWakeDone (s : nat)                    (* ... looks again *)
  | LClear                                 (* another process clears the event *)
  | LExit (s : nat)                        (* m_sequence_exiting *)
  | LArb (a : nat)
  | LOther (k : nat)                       (* requests made on other sequencers *)
  | LNext (rel : nat -> bool) (rnd : nat)  (* get_next_item, first half *)
  | LPeek (rel : nat -> bool) (rnd : nat)  (* peek / get, first half *)
  | LItem                                  (* second half: the item arrives *)
  | LGetItem                               (* second half of get *)
  | LTry (rel : nat -> bool) (rnd : nat)   (* try_next_item up to its second await *)
  | LDone (rsp : option item)              (* item_done *)
  | LPut (x : item)                        (* put_response *)
  | LGet (p s : nat) (t : Z) | LGetWake (p : nat)
  | LDepth (s : nat) (d : Z) | LHandler (s : nat) (b : bool).

  Definition step (y : sqr) (l : lab) : sqr * list out :=
    match l with
    | LStart s => start y s
    | LRequest s lk => request y s lk
    | LGrant r => granted y r
    | LSend s t p => send_request y s t p
    | LWaitDone s =>
        (* 445-475; the event may still be set from before *)
        (set_wait y (-1) (ev y) (upd (iwait y) s (Some (ev y))), [])
    | LWakeDone s =>
        match iwait y s with
        | Some true =>
            if done_sid y =? sid y s
            then (set_wait y (done_sid y) false (upd (iwait y) s None), [ODoneSeen s])
            else (set_wait y (done_sid y) false (upd (iwait y) s (Some false)), [])
        | _ => (y, [])
        end
    | LClear => (set_wait y (done_sid y) false (iwait y), [])
    | LExit s => remove_seq y s
    | LArb a => (set_arb y a, [])
    | LOther k => (set_waiting y (waiting y) (next_rid y + k)%nat, [])
    | LNext rel rnd =>
        (* uvm_sequencer.py 111-121 *)
        let e := if called y then [OErrTwice] else [] in
        if requested y then (set_flags y true true, e)
        else let '(y1, o, go) := try_select y rel rnd in
             (if go then set_flags y1 true true else y1, e ++ o)
    | LPeek rel rnd =>
        if requested y then (y, [])
        else let '(y1, o, go) := try_select y rel rnd in
             (if go then set_flags y1 true (called y1) else y1, o)
    | LItem =>
        if requested y then match fifo y with x :: _ => (y, [OItem x]) | [] => (y, []) end
        else (y, [])
    | LGetItem =>
        if requested y then
          match fifo y with
          | x :: _ => let '(y1, o) := item_done y None in (y1, OItem x :: o)
          | [] => (y, [])
          end
        else (y, [])
    | LTry rel rnd =>
        (* uvm_sequencer.py 124-154 *)
        if called y then (y, [OErrTwice])
        else match choose y rel rnd with
             | CExn => (y, [OExn])
             | CFatal => (y, [OFatal])
             | CNone => (y, [])
             | CSome i => let '(y1, o) := select y i in (set_flags y1 true true, o)
             end
    | LDone rsp => item_done y rsp
    | LPut x => put_response y x
    | LGet p s t => get_call y p s t
    | LGetWake p => get_wake y p
    | LDepth s d => (set_resp y (respq y) (upd (depth y) s d) (handler y) (getters y), [])
    | LHandler s b => (set_resp y (respq y) (depth y) (upd (handler y) s b) (getters y), [])
    end.
End Sqr.
