(** Model of transaction recording: src/uvm/base/uvm_tr_database.py, uvm_tr_stream.py,
    uvm_recorder.py (the text database and its recorders), uvm_transaction.py 174-579 and
    the recording interface of uvm_component.py 1787-2076, 2233-2323.

    There is one database. Opening its file succeeds. Streams cannot be closed or freed in
    this code base (uvm_tr_stream.py 195-255 is commented out), so a stream is a number.
    A recorder is a number too, which is also its handle (get_inst_id(), unique);
    a handle 0 is [None]. Names, type names, radix and the format of the lines are left out,
    as are the simulation times at which lines are written; a line keeps the time that is
    passed to it. Recording an attribute writes one line. *)
From Coq Require Import ZArith List Bool Arith.
From Verif Require Import Prelude.
Import ListNotations.
Open Scope Z_scope.

(** uvm_tr_database.py 74-127. The flag is False, the result of do_open_db() or, after
    close_db(), the number 0, which is not False (92), so that the database is not opened
    again. *)
Inductive dbst := Never | Opened | Closed.
Inductive life := LNew | LOpen | LClosed | LFreed.
Inductive line :=
| WStream (s : nat)                                     (* uvm_tr_stream.py 597-603 *)
| WOpen (r s : nat) (t : Z) (child : bool)              (* uvm_recorder.py 810-813 *)
| WAttr (r : nat) (a : nat)                             (* 927-930, 969-976, 989-993 *)
| WClose (r : nat) (t : Z)                              (* 826-830 *)
| WFree (r : nat)                                       (* 840-842 *)
| WLink (a b : nat).                                    (* uvm_tr_database.py 445-450 *)

Record recorder := Recorder { r_life : life; r_topen : Z; r_tclose : Z }.
Record trans := Trans {
  t_stream : option nat; t_rec : option nat;            (* stream_handle, tr_recorder *)
  t_begin : Z; t_end : Z; t_accept : Z;
  t_nbegin : nat; t_nend : nat; t_naccept : nat         (* triggers of the events *)
}.
Record comp := Comp {
  c_on : bool;                                          (* recording_detail != UVM_NONE *)
  c_main : option nat;
  c_streams : list (nat * option nat);                  (* m_streams *)
  c_trh : nat -> option nat;                            (* m_tr_h *)
  c_nbegin : nat; c_nend : nat
}.
Record st := St {
  now : Z; db : dbst; nstr : nat; nrec : nat;
  rec : nat -> recorder; reg : nat -> bool;             (* m_recorders_by_id *)
  tr : nat -> trans; cmp : nat -> comp;
  log : list line
}.
Definition rec0 := Recorder LNew 0 0.
Definition tr0 := Trans None None (-1) (-1) (-1) 0 0 0.
Definition comp0 := Comp false None [] (fun _ => None) 0 0.
Definition init : st := St 0 Never 0 0 (fun _ => rec0) (fun _ => false) (fun _ => tr0) (fun _ => comp0) [].

Definition set_now s x := St x (db s) (nstr s) (nrec s) (rec s) (reg s) (tr s) (cmp s) (log s).
Definition set_db s x := St (now s) x (nstr s) (nrec s) (rec s) (reg s) (tr s) (cmp s) (log s).
Definition set_nstr s x := St (now s) (db s) x (nrec s) (rec s) (reg s) (tr s) (cmp s) (log s).
Definition set_nrec s x := St (now s) (db s) (nstr s) x (rec s) (reg s) (tr s) (cmp s) (log s).
Definition set_rec s r x := St (now s) (db s) (nstr s) (nrec s) (upd (rec s) r x) (reg s) (tr s) (cmp s) (log s).
Definition set_reg s r x := St (now s) (db s) (nstr s) (nrec s) (rec s) (upd (reg s) r x) (tr s) (cmp s) (log s).
Definition set_tr s t x := St (now s) (db s) (nstr s) (nrec s) (rec s) (reg s) (upd (tr s) t x) (cmp s) (log s).
Definition set_cmp s c x := St (now s) (db s) (nstr s) (nrec s) (rec s) (reg s) (tr s) (upd (cmp s) c x) (log s).
Definition add_log s x := St (now s) (db s) (nstr s) (nrec s) (rec s) (reg s) (tr s) (cmp s) (log s ++ [x]).

(** uvm_tr_database.py 92-94 *)
Definition open_db (s : st) : st * bool :=
  match db s with Never => (set_db s Opened, true) | Opened => (s, true) | Closed => (s, false) end.
(** 112-115 *)
Definition close_db (s : st) : st := match db s with Opened => set_db s Closed | _ => s end.
(** 165-183; do_open() of the stream, uvm_tr_stream.py 595-603 *)
Definition open_stream (s : st) : st * option nat :=
  let (s, ok) := open_db s in
  if ok then let i := nstr s in (add_log (set_nstr s (S i)) (WStream i), Some i) else (s, None).

(** uvm_recorder.py 371-394: a recorder that was opened once is registered, also when it has
    been freed: the flags are then the number 0, which is not False (381) *)
Definition get_handle (s : st) (r : nat) : st * option nat :=
  match r_life (rec s r) with LNew => (s, None) | _ => (set_reg s r true, Some r) end.
(** 423-427 *)
Definition from_handle (s : st) (h : option nat) : option nat :=
  match h with Some r => if reg s r then Some r else None | None => None end.
(** A line with the handle of a recorder *)
Definition put (s : st) (r : nat) (x : line) : st :=
  let (s, ok) := open_db s in if ok then add_log (fst (get_handle s r)) x else s.
(** 199-209; [None]: the AttributeError of do_close() after do_free() has cleared m_text_db *)
Definition close (s : st) (r : nat) (t : Z) : option st :=
  let t := if t =? 0 then now s else t in
  match r_life (rec s r) with
  | LNew => Some s
  | LFreed => None
  | _ => let s := put s r (WClose r t) in Some (set_rec s r (Recorder LClosed (r_topen (rec s r)) t))
  end.
(** 230-257, 839-844 *)
Definition free (s : st) (r : nat) (t : Z) : option st :=
  match r_life (rec s r) with
  | LNew | LFreed => Some s
  | l =>
      match (match l with LOpen => close s r t | _ => Some s end) with
      | None => None
      | Some s =>
          let s := put s r (WFree r) in
          let s := set_rec s r (Recorder LFreed (r_topen (rec s r)) (r_tclose (rec s r))) in
          Some (set_reg s r false)
      end
  end.
(** 442-509, 855-993: nothing without a stream *)
Fixpoint record (s : st) (r : nat) (ats : list nat) : st :=
  match ats with
  | [] => s
  | a :: ats =>
      match r_life (rec s r) with
      | LNew | LFreed => record s r ats
      | _ => record (put s r (WAttr r a)) r ats
      end
  end.
(** uvm_tr_stream.py 363-384, uvm_recorder.py 301-337, 795-813 *)
Definition open_recorder (s : st) (i : nat) (t : Z) (child : bool) : st * option nat :=
  let t := if t =? 0 then now s else t in
  let (s, ok) := open_db s in
  if ok then
    let r := nrec s in
    let s := set_rec (set_nrec s (S r)) r (Recorder LOpen t 0) in
    (put s r (WOpen r i t child), Some r)
  else (s, None).

(** uvm_tr_database.py 223-294: only an object that is a stream and a recorder is accepted *)
Inductive obj := OStream (s : nat) | ORec (r : nat) | OOther.
Definition is_stream (o : obj) : bool := match o with OStream _ => true | _ => false end.
Definition is_rec (o : obj) : bool := match o with ORec _ => true | _ => false end.
Definition establish_link (s : st) (lhs rhs : obj) : st :=
  if negb (is_stream lhs) || negb (is_rec lhs) then s
  else if negb (is_stream rhs) || negb (is_rec rhs) then s
  else match lhs, rhs with ORec a, ORec b => put (put s a (WLink a b)) b (WLink a b) | _, _ => s end.

Section Calls.
(** The attributes that record() of a transaction writes *)
Context (attrs : nat -> list nat).

(** uvm_transaction.py 361-376; [None]: an exception, and the state when it is raised *)
Definition end_tr (s : st) (t : nat) (time : Z) (fr : bool) : st * bool :=
  let e := if time =? 0 then now s else time in
  let x := tr s t in
  let s := set_tr s t (Trans (t_stream x) (t_rec x) (t_begin x) e (t_accept x) (t_nbegin x) (t_nend x) (t_naccept x)) in
  let finish s := (set_tr s t (Trans (t_stream x) None (t_begin x) e (t_accept x) (t_nbegin x) (S (t_nend x)) (t_naccept x)), true) in
  match t_stream x, t_rec x with
  | Some _, Some r =>
      let s := record s r (attrs t) in
      match close s r e with
      | None => (s, false)
      | Some s => if fr then match free s r 0 with None => (s, false) | Some s => finish s end else finish s
      end
  | _, _ => finish s
  end.
(** 530-579; the boolean tells that no exception was raised, the option is the handle *)
Definition begin_tr (s : st) (t : nat) (time : Z) (parent : option nat) : st * bool * option nat :=
  let tmp := if time =? 0 then now s else time in
  let child := match from_handle s parent with Some _ => true | None => false end in
  let '(s, ok) := match t_rec (tr s t) with None => (s, true) | Some _ => end_tr s t tmp true end in
  if ok then
    let x := tr s t in
    match t_stream x with
    | Some i =>
        let s := set_tr s t (Trans (t_stream x) (t_rec x) tmp (-1) (t_accept x) (t_nbegin x) (t_nend x) (t_naccept x)) in
        let (s, r) := open_recorder s i tmp child in
        let (s, h) := match r with Some r => get_handle s r | None => (s, None) end in
        (set_tr s t (Trans (t_stream x) r tmp (-1) (t_accept x) (S (t_nbegin x)) (t_nend x) (t_naccept x)), true, h)
    | None =>
        (set_tr s t (Trans None None tmp (-1) (t_accept x) (S (t_nbegin x)) (t_nend x) (t_naccept x)), true, None)
    end
  else (s, false, None).
(** 215-225 *)
Definition accept_tr (s : st) (t : nat) (time : Z) : st :=
  let x := tr s t in
  set_tr s t (Trans (t_stream x) (t_rec x) (t_begin x) (t_end x) (if time =? 0 then now s else time)
                (t_nbegin x) (t_nend x) (S (t_naccept x))).
(** 407-417 *)
Definition set_stream (s : st) (t : nat) (i : option nat) : st :=
  let x := tr s t in
  set_tr s t (Trans i (t_rec x) (t_begin x) (t_end x) (t_accept x) (t_nbegin x) (t_nend x) (t_naccept x)).

Definition with_main (c : comp) x := Comp (c_on c) x (c_streams c) (c_trh c) (c_nbegin c) (c_nend c).
Definition with_streams (c : comp) x := Comp (c_on c) (c_main c) x (c_trh c) (c_nbegin c) (c_nend c).
Definition with_trh (c : comp) x := Comp (c_on c) (c_main c) (c_streams c) x (c_nbegin c) (c_nend c).
(** uvm_component.py 2070-2076 *)
Fixpoint assocn (n : nat) (l : list (nat * option nat)) : option (option nat) :=
  match l with [] => None | (k, x) :: l => if Nat.eqb n k then Some x else assocn n l end.
Definition get_tr_stream (s : st) (c : nat) (n : nat) : st * option nat :=
  match assocn n (c_streams (cmp s c)) with
  | Some x => (s, x)
  | None =>
      let (s, x) := open_stream s in
      (set_cmp s c (with_streams (cmp s c) ((n, x) :: c_streams (cmp s c))), x)
  end.
(** 2233-2323. [pseq]: the recorder of the parent sequence of a sequence item; [name = None]: "" or
    "main"; [lab]: the label and description lines. The main stream is used only by the call that
    opens it (2289-2291). *)
Definition c_begin (s : st) (c t : nat) (parent pseq : option nat) (name : option nat) (lab : list nat) (time : Z)
  : st * bool * option nat :=
  let par := match from_handle s parent with Some r => Some r | None => pseq end in
  let (s, ph) := match par with Some r => get_handle s r | None => (s, None) end in
  let '(s, ok, link) := begin_tr s t time ph in
  if ok then
    let s_h :=
      if c_on (cmp s c) then
        let (s, stream) :=
          match name with
          | None =>
              match c_main (cmp s c) with
              | None => let (s, x) := open_stream s in (set_cmp s c (with_main (cmp s c) x), x)
              | Some _ => (s, None)
              end
          | Some n => get_tr_stream s c n
          end in
        match stream with
        | None => (s, None)
        | Some i =>
            let (s, r) := open_recorder s i time (match par with Some _ => true | None => false end) in
            match r with
            | None => (s, None)
            | Some r =>
                let s := record s r lab in
                let s := match par with Some p => establish_link s (ORec p) (ORec r) | None => s end in
                let s := match from_handle s link with Some l => establish_link s (ORec r) (ORec l) | None => s end in
                let s := set_cmp s c (with_trh (cmp s c) (upd (c_trh (cmp s c)) t (Some r))) in
                get_handle s r
            end
        end
      else (s, None) in
    let (s, h) := s_h in
    let x := cmp s c in
    (set_cmp s c (Comp (c_on x) (c_main x) (c_streams x) (c_trh x) (S (c_nbegin x)) (c_nend x)), true, h)
  else (s, false, None).
(** 1894-1916 *)
Definition c_end (s : st) (c t : nat) (time : Z) (fr : bool) : st * bool :=
  let (s, ok) := end_tr s t time fr in
  if ok then
    let finish s := let x := cmp s c in
      (set_cmp s c (Comp (c_on x) (c_main x) (c_streams x) (c_trh x) (c_nbegin x) (S (c_nend x))), true) in
    if c_on (cmp s c) then
      match c_trh (cmp s c) t with
      | Some r =>
          let s := fst (get_handle s r) in
          let s := set_cmp s c (with_trh (cmp s c) (upd (c_trh (cmp s c)) t None)) in
          let s := record s r (attrs t) in
          match close s r time with
          | None => (s, false)
          | Some s => if fr then match free s r 0 with None => (s, false) | Some s => finish s end else finish s
          end
      | None => finish s
      end
    else finish s
  else (s, false).
(** record_error_tr() and record_event_tr(), 1950-1992, 2011-2053; the component's m_get_tr_database()
    has been called *)
Definition c_event (s : st) (c : nat) (name : option nat) (lab : list nat) (time : Z) (keep : bool)
  : st * bool * option nat :=
  let time := if time =? 0 then now s else time in
  let (s, stream) :=
    match name with
    | None =>
        match c_main (cmp s c) with
        | None => let (s, x) := open_stream s in (set_cmp s c (with_main (cmp s c) x), x)
        | Some i => (s, Some i)
        end
    | Some n => get_tr_stream s c n
    end in
  match stream with
  | None => (s, true, None)
  | Some i =>
      let (s, r) := open_recorder s i time false in
      match r with
      | None => (s, true, None)
      | Some r =>
          match close (record s r lab) r time with
          | None => (s, false, None)
          | Some s => if keep then let (s, h) := get_handle s r in (s, true, h)
                      else match free s r 0 with None => (s, false, None) | Some s => (s, true, None) end
          end
      end
  end.

(** ** Histories of calls *)
Inductive call :=
| Tick (t : Z)                                           (* the simulation time becomes [t] *)
| OpenDb | CloseDb | OpenStream
| OpenRec (i : nat) (t : Z) | Record (r : nat) (ats : list nat) | Close (r : nat) (t : Z) | Free (r : nat) (t : Z)
| GetHandle (r : nat) | FromHandle (h : option nat) | Link (a b : obj)
| SetStream (t : nat) (i : option nat) | Begin (t : nat) (time : Z) (parent : option nat)
| End (t : nat) (time : Z) (fr : bool) | Accept (t : nat) (time : Z)
| SetOn (c : nat) (b : bool) | GetStream (c n : nat)
| CBegin (c t : nat) (parent pseq name : option nat) (lab : list nat) (time : Z)
| CEnd (c t : nat) (time : Z) (fr : bool) | CEvent (c : nat) (name : option nat) (lab : list nat) (time : Z) (keep : bool).
(** the result: nothing, a truth value, a stream/recorder/handle, an exception *)
Inductive res := RUnit | RBool (b : bool) | RRef (x : option nat) | RRaise.
Definition step (s : st) (c : call) : st * res :=
  match c with
  | Tick t => (set_now s t, RUnit)
  | OpenDb => let (s, b) := open_db s in (s, RBool b)
  | CloseDb => (close_db s, RBool true)
  | OpenStream => let (s, x) := open_stream s in (s, RRef x)
  | OpenRec i t => if (i <? nstr s)%nat then let (s, x) := open_recorder s i t false in (s, RRef x) else (s, RUnit)
  | Record r ats => (record s r ats, RUnit)
  | Close r t => match close s r t with Some s => (s, RUnit) | None => (s, RRaise) end
  | Free r t => match free s r t with Some s => (s, RUnit) | None => (s, RRaise) end
  | GetHandle r => let (s, h) := get_handle s r in (s, RRef h)
  | FromHandle h => (s, RRef (from_handle s h))
  | Link a b => (establish_link s a b, RUnit)
  | SetStream t i => (set_stream s t i, RUnit)
  | Begin t time p => let '(s, ok, h) := begin_tr s t time p in (s, if ok then RRef h else RRaise)
  | End t time fr => let (s, ok) := end_tr s t time fr in (s, if ok then RUnit else RRaise)
  | Accept t time => (accept_tr s t time, RUnit)
  | SetOn c b => let x := cmp s c in (set_cmp s c (Comp b (c_main x) (c_streams x) (c_trh x) (c_nbegin x) (c_nend x)), RUnit)
  | GetStream c n => let (s, x) := get_tr_stream s c n in (s, RRef x)
  | CBegin c t p q n lab time => let '(s, ok, h) := c_begin s c t p q n lab time in (s, if ok then RRef h else RRaise)
  | CEnd c t time fr => let (s, ok) := c_end s c t time fr in (s, if ok then RUnit else RRaise)
  | CEvent c n lab time keep => let '(s, ok, h) := c_event s c n lab time keep in (s, if ok then RRef h else RRaise)
  end.
Fixpoint run (s : st) (cs : list call) : st := match cs with [] => s | c :: cs => run (fst (step s c)) cs end.
End Calls.
