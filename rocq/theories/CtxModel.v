(** Model of the context of sequence items and of the macros that send them:
    src/uvm/seq/uvm_sequence_item.py set_item_context 118-136, the setters 185-232, get_depth
    235-256, get_full_name 271-288, get_root_sequence 315-332, get_sequence_path 335-353;
    src/uvm/seq/uvm_sequence_base.py start 296-318 and 341-342, create_item 957-978, start_item
    981-1034, finish_item 1036-1061; src/uvm/seq/uvm_sequencer_base.py execute_item 185-207;
    src/uvm/macros/uvm_sequence_defines.py uvm_do and its variants 57-279.

    Objects are numbered in the order of creation. A macro is one step: the waits for the grant
    and for the end of the item (SeqrModel, SelModel) are left out, as are the hooks and the
    life of a sequence (SeqLifeModel), so nothing changes the item in between; randomize_with
    has an arbitrary outcome. *)
From Coq Require Import ZArith List Bool Arith String.
From Verif Require Import Prelude.
Import ListNotations.
Local Open Scope nat_scope.

(** [o_seq]: a UVMSequence; [o_norand]: do_not_randomize *)
Record obj := Obj {
  o_seq : bool; o_name : string; o_norand : bool;
  o_sqr : option nat; o_par : option nat; o_depth : Z; o_prio : Z }.
Record cs := CS { size : nat; ob : nat -> obj }.
Definition put (s : cs) (x : nat) (o : obj) : cs := CS (size s) (upd (ob s) x o).
Definition with_sqr (o : obj) (q : option nat) : obj := Obj (o_seq o) (o_name o) (o_norand o) q (o_par o) (o_depth o) (o_prio o).
Definition with_par (o : obj) (p : option nat) : obj := Obj (o_seq o) (o_name o) (o_norand o) (o_sqr o) p (o_depth o) (o_prio o).
Definition with_depth (o : obj) (d : Z) : obj := Obj (o_seq o) (o_name o) (o_norand o) (o_sqr o) (o_par o) d (o_prio o).
Definition with_prio (o : obj) (p : Z) : obj := Obj (o_seq o) (o_name o) (o_norand o) (o_sqr o) (o_par o) (o_depth o) p.

(** get_depth 247-256; the value is kept. None: RecursionError. *)
Fixpoint depth (fuel : nat) (s : cs) (x : nat) : option (cs * Z) :=
  match fuel with
  | O => None
  | S k =>
      if negb (o_depth (ob s x) =? -1)%Z then Some (s, o_depth (ob s x))
      else
        match o_par (ob s x) with
        | None => Some (put s x (with_depth (ob s x) 1), 1%Z)
        | Some p =>
            match depth k s p with
            | None => None
            | Some (s, d) => Some (put s x (with_depth (ob s x) (d + 1)), (d + 1)%Z)
            end
        end
  end.
Definition get_depth (s : cs) (x : nat) : option (cs * Z) := depth (S (size s)) s x.

(** 128-136; the second component tells whether it raises *)
Definition set_context (s : cs) (x : nat) (par : option nat) (sqr : option nat) : cs * bool :=
  let s := match par with Some p => put s x (with_par (ob s x) (Some p)) | None => s end in
  let sqr := match sqr, o_par (ob s x) with None, Some p => o_sqr (ob s p) | _, _ => sqr end in
  let s := put s x (with_sqr (ob s x) sqr) in
  match o_par (ob s x) with
  | None => (s, false)
  | Some p =>
      match get_depth s p with
      | None => (s, true)
      | Some (s, d) => (put s x (with_depth (ob s x) (d + 1)), false)
      end
  end.

Inductive out :=
| OFatal | ORec                                   (* uvm_fatal; RecursionError *)
| OAttr                                           (* AttributeError *)
| ODepth (x : nat) (d : Z)
| OStart (x : nat) (sqr : option nat) (prio : Z)  (* registered with this sequencer, if any *)
| OReq (q x sqr : nat) (prio : Z)                 (* wait_for_grant of sequence [q] for [x] *)
| ORand (x : nat) | OWarn                         (* randomize_with; it failed *)
| OSend (q x sqr : nat).                          (* send_request *)
Inductive label :=
| LNew (seq : bool) (name : string) (norand : bool)
| LContext (x : nat) (par sqr : option nat)              (* set_item_context *)
| LPar (x : nat) (par : option nat) | LSqr (x : nat) (sqr : option nat) | LDep (x : nat) (d : Z) | LPrio (x : nat) (p : Z)
| LDepth (x : nat)                                       (* get_depth *)
| LStart (x : nat) (sqr par : option nat) (prio : Z)     (* start *)
| LItem (q x : nat) (prio : Z) (sqr : option nat)        (* q.start_item(x), then finish_item *)
| LDo (q x : nat) (sqr : option nat) (prio : Z) (made ok : bool)
    (* uvm_do_on_pri_with; [made]: what the factory makes is a sequence; [ok]: randomize_with *)
| LSendMac (q x : nat) (prio : Z)                        (* uvm_send_pri *)
| LExec (sqr x : nat).                                   (* sqr.execute_item(x) *)

Definition fresh (seq : bool) (name : string) (norand : bool) : obj := Obj seq name norand None None (-1) (-1).
Definition new (s : cs) (o : obj) : cs := CS (S (size s)) (upd (ob s) (size s) o).

(** uvm_sequence_base.py 296-318 *)
Definition start (s : cs) (x : nat) (sqr par : option nat) (prio : Z) : cs * list out :=
  let (s, bad) := set_context s x par sqr in
  if bad then (s, [ORec])
  else if (prio <? -1)%Z then (s, [OFatal])
  else
    let p := if (prio <? 0)%Z then match par with None => 100%Z | Some p => o_prio (ob s p) end else prio in
    let s := put s x (with_prio (ob s x) p) in
    (s, [OStart x (o_sqr (ob s x)) p]).
(** 997-1034 *)
Definition orelse (a b : option nat) : option nat := match a with Some _ => a | None => b end.
Definition start_item (s : cs) (q x : nat) (prio : Z) (sqr : option nat) : cs * option nat * list out :=
  match orelse sqr (orelse (o_sqr (ob s x)) (o_sqr (ob s q))) with
  | None => (s, None, [OFatal])
  | Some t =>
      let (s, bad) := set_context s x (Some q) (Some t) in
      if bad then (s, None, [ORec])
      else (s, Some t, [OReq q x t (if (prio <? 0)%Z then o_prio (ob s q) else prio)])
  end.
(** 1049-1061 *)
Definition finish_item (s : cs) (q x : nat) : list out :=
  match o_sqr (ob s x) with None => [OFatal] | Some t => [OSend q x t] end.
Definition rand (x : nat) (ok : bool) : list out := if ok then [ORand x] else [ORand x; OWarn].
Definition item_with (s : cs) (q x : nat) (prio : Z) (sqr : option nat) (mid : list out) : cs * list out :=
  match start_item s q x prio sqr with
  | (s, None, o) => (s, o)
  | (s, Some _, o) => (s, o ++ mid ++ finish_item s q x)
  end.
(** macros 216-228; create_item 973-978 *)
Definition do_on (s : cs) (q x : nat) (sqr : option nat) (prio : Z) (made ok : bool) : cs * list out :=
  let c := size s in
  let s := new s (fresh made "SEQ_OR_ITEM"%string false) in
  let (s, bad) := set_context s c (Some q) sqr in
  if bad then (s, [ORec])
  else if made then
    if negb (o_seq (ob s x)) then (s, [OAttr])
    else
      let r := if o_norand (ob s x) then [] else rand x ok in
      let (s, o) := start s x sqr (Some q) prio in (s, r ++ o)
  else item_with s q x prio None (rand x ok).
(** macros 273-279 *)
Definition send_mac (s : cs) (q x : nat) (prio : Z) : cs * list out :=
  if o_seq (ob s x) then start s x (o_sqr (ob s x)) (Some q) prio else item_with s q x prio None [].
(** uvm_sequencer_base.py 199-207 *)
Definition execute (s : cs) (sqr x : nat) : cs * list out :=
  let q := size s in
  let s := new s (fresh true "uvm_sequence"%string false) in
  let s := put s x (with_sqr (ob s x) (Some sqr)) in
  let s := put s x (with_par (ob s x) (Some q)) in
  let s := put s q (with_sqr (ob s q) (Some sqr)) in
  item_with s q x (-1) None [].

(** Calls are made on objects that exist, and by sequences. *)
Definition known (s : cs) (x : nat) : bool := x <? size s.
Definition isq (s : cs) (x : nat) : bool := known s x && o_seq (ob s x).
Definition isp (s : cs) (p : option nat) : bool := match p with None => true | Some p => isq s p end.
Definition exist (s : cs) (l : label) : bool :=
  match l with
  | LNew _ _ _ => true
  | LContext x p _ | LPar x p => known s x && isp s p
  | LSqr x _ | LDep x _ | LDepth x => known s x
  | LPrio x _ => isq s x
  | LStart x _ p _ => isq s x && isp s p
  | LItem q x _ _ | LDo q x _ _ _ _ | LSendMac q x _ => isq s q && known s x
  | LExec _ x => known s x
  end.
Definition step (s : cs) (l : label) : cs * list out :=
  if negb (exist s l) then (s, [])
  else
    match l with
    | LNew k n r => (new s (fresh k n r), [])
    | LContext x p q => let (s, bad) := set_context s x p q in (s, if bad then [ORec] else [])
    | LPar x p => (put s x (with_par (ob s x) p), [])
    | LSqr x q => (put s x (with_sqr (ob s x) q), [])
    | LDep x d => (put s x (with_depth (ob s x) d), [])
    | LPrio x p => (put s x (with_prio (ob s x) p), [])
    | LDepth x => match get_depth s x with None => (s, [ORec]) | Some (s, d) => (s, [ODepth x d]) end
    | LStart x q p prio => start s x q p prio
    | LItem q x prio sqr => item_with s q x prio sqr []
    | LDo q x sqr prio made ok => do_on s q x sqr prio made ok
    | LSendMac q x prio => send_mac s q x prio
    | LExec sqr x => execute s sqr x
    end.
Definition init : cs := CS 0 (fun _ => fresh false ""%string false).
Definition run (ls : list label) : cs * list out := run_machine step init ls.

(** ** Names; None: does not end *)
Local Open Scope string_scope.
Section Names.
Context (qname : nat -> string).        (* full names of the sequencers *)
(** uvm_sequence_item.py 279-288 *)
Fixpoint full_name (fuel : nat) (s : cs) (x : nat) : option string :=
  match fuel with
  | O => None
  | S k =>
      let own := match o_name (ob s x) with EmptyString => "_item" | n => n end in
      match o_par (ob s x) with
      | Some p => option_map (fun n => n ++ "." ++ own) (full_name k s p)
      | None => Some (match o_sqr (ob s x) with Some q => qname q ++ "." ++ own | None => own end)
      end
  end.
End Names.
(** 344-353 *)
Fixpoint seq_path (fuel : nat) (s : cs) (x : nat) (acc : string) : option string :=
  match fuel with
  | O => None
  | S k => match o_par (ob s x) with None => Some acc | Some p => seq_path k s p (o_name (ob s p) ++ "." ++ acc) end
  end.
Definition get_path (fuel : nat) (s : cs) (x : nat) : option string := seq_path fuel s x (o_name (ob s x)).
(** 323-332 *)
Fixpoint root_seq (fuel : nat) (s : cs) (x : nat) (acc : option nat) : option (option nat) :=
  match fuel with
  | O => None
  | S k => match o_par (ob s x) with None => Some acc | Some p => root_seq k s p (Some p) end
  end.
