(** Model of translation sequences of the register layer: src/uvm/reg/uvm_reg_sequence.py,
    UVMRegSequence.body 137-170 and do_reg_item 173-204, over accesses through a map without
    adapter, src/uvm/reg/uvm_reg_map.py 1636-1649, 1680-1688, and what the upstream sequencer
    does for them, src/uvm/seq/uvm_sequencer.py item_done 166-189, get 203-215, peek 218-231,
    m_select_sequence (uvm_sequencer_base.py 742-762) and send_request
    (uvm_sequencer_param_base.py 92-131).

    Accesses, each with its own register item, and translation sequences are numbered. A step
    is what a process does between two awaits; every wait is left in any order. Simplified:
    the choice of a request is arbitrary (the label says which; C50, C88); there are no locks
    on the upstream sequencer and no other driver; an access that is done returns at any later
    time (C89 says when finish_item is woken); the transfers of do_bus_write and do_bus_read
    (BusModel.v) are one step that ends with a status or raises; values are left out. A fatal
    report ends the call it occurs in. *)
From Coq Require Import List Bool Arith.
From Verif Require Import Prelude.
Import ListNotations.

Inductive who := User (a : nat) | Xl (t : nat).   (* rw.parent: that of the access, or t *)
Inductive astate :=
| ANew
| AReq          (* in wait_for_grant *)
| AGranted      (* before send_request *)
| ASent         (* in wait_for_item_done *)
| ADone         (* woken *)
| AReturned
| AFailed.      (* send_request was fatal *)
Inductive tstate :=
| TIdle                 (* before peek, 164-166 *)
| TSel                  (* peek: in m_select_sequence *)
| TPeek                 (* peek: waits for the item *)
| TBus (a : nat)        (* 198-201 *)
| TSelG | TGet          (* the same two waits of get, 168 *)
| TDead.                (* raised *)
Record xs := Xs {
  acc : nat -> astate;
  arbq : list nat;           (* arb_sequence_q *)
  fifo : list nat;           (* m_req_fifo, bound 1 *)
  requested : bool;          (* sequence_item_requested *)
  tr : nat -> tstate;
  parent : nat -> who;       (* rw.parent *)
  upstream : nat -> option who;   (* upstream_parent of a translation sequence *)
  status : nat -> option nat      (* rw.status, None: as the access began *)
}.
Definition xs0 : xs := Xs (fun _ => ANew) [] [] false (fun _ => TIdle) User (fun _ => None) (fun _ => None).
Definition w_acc s f := Xs f (arbq s) (fifo s) (requested s) (tr s) (parent s) (upstream s) (status s).
Definition w_tr s f := Xs (acc s) (arbq s) (fifo s) (requested s) f (parent s) (upstream s) (status s).
Definition w_arbq s q := Xs (acc s) q (fifo s) (requested s) (tr s) (parent s) (upstream s) (status s).
Definition w_fifo s q := Xs (acc s) (arbq s) q (requested s) (tr s) (parent s) (upstream s) (status s).
Definition w_req s b := Xs (acc s) (arbq s) (fifo s) b (tr s) (parent s) (upstream s) (status s).
Definition w_par s f := Xs (acc s) (arbq s) (fifo s) (requested s) (tr s) f (upstream s) (status s).
Definition w_up s f := Xs (acc s) (arbq s) (fifo s) (requested s) (tr s) (parent s) f (status s).
Definition w_st s f := Xs (acc s) (arbq s) (fifo s) (requested s) (tr s) (parent s) (upstream s) f.

Inductive lab :=
| LReq (a : nat)                        (* access a asks for the upstream sequencer *)
| LSend (a : nat)                       (* access a, granted, sends its item *)
| LRet (a : nat)                        (* access a returns *)
| LRun (t : nat)                        (* t goes on; not from a selection or the bus *)
| LSel (t k : nat)                      (* t selects the k-th request *)
| LBus (t : nat) (r : option nat).      (* the transfers end with a status or raise *)
Inductive out :=
| OGrant (a : nat)                      (* a is chosen *)
| OSent (a : nat)
| OBus (t a : nat) (p : who) (r : option nat)   (* t did the transfers of a, with this parent *)
| ORet (a : nat) (st : option nat) (p : who)    (* a returns, its status and rw.parent *)
| OFatal (a : nat).

Section Xlt.
(** whether parent_select is LOCAL (the default, 134) *)
Context (local : nat -> bool).

(** peek and get up to the item, 210-213 and 225-231 *)
Definition ask (s : xs) (t : nat) (sel wait : tstate) : xs :=
  if requested s then w_tr (w_req s true) (upd (tr s) t wait) else w_tr s (upd (tr s) t sel).
Definition select (s : xs) (t k : nat) (wait : tstate) : xs * list out :=
  match nth_error (arbq s) k with
  | None => (s, [])
  | Some a => (w_tr (w_req (w_acc (w_arbq s (firstn k (arbq s) ++ skipn (S k) (arbq s))) (upd (acc s) a AGranted)) true) (upd (tr s) t wait), [OGrant a])
  end.
(** do_reg_item 194-196 *)
Definition take (s : xs) (t a : nat) : xs :=
  let s := w_tr s (upd (tr s) t (TBus a)) in
  if local t then w_par (w_up s (upd (upstream s) t (Some (parent s a)))) (upd (parent s) a (Xl t)) else s.
(** 203-204 *)
Definition give_back (s : xs) (t a : nat) : xs :=
  if local t then match upstream s t with Some p => w_par s (upd (parent s) a p) | None => s end else s.
(** item_done *)
Definition done (s : xs) (a : nat) : xs := w_fifo (w_req (w_acc s (upd (acc s) a ADone)) false) (tl (fifo s)).

Definition step (s : xs) (l : lab) : xs * list out :=
  match l with
  | LReq a => match acc s a with ANew => (w_acc (w_arbq s (arbq s ++ [a])) (upd (acc s) a AReq), []) | _ => (s, []) end
  | LSend a =>
      match acc s a with
      | AGranted =>
          match fifo s with
          | [] => (w_fifo (w_acc s (upd (acc s) a ASent)) [a], [OSent a])
          | _ => (w_acc s (upd (acc s) a AFailed), [OFatal a])
          end
      | _ => (s, [])
      end
  | LRet a => match acc s a with ADone => (w_acc s (upd (acc s) a AReturned), [ORet a (status s a) (parent s a)]) | _ => (s, []) end
  | LRun t =>
      match tr s t with
      | TIdle => (ask s t TSel TPeek, [])
      | TPeek => match fifo s with a :: _ => (take s t a, []) | [] => (s, []) end
      | TGet => match fifo s with a :: _ => (w_tr (done s a) (upd (tr s) t TIdle), []) | [] => (s, []) end
      | _ => (s, [])
      end
  | LSel t k =>
      match tr s t with
      | TSel => select s t k TPeek
      | TSelG => select s t k TGet
      | _ => (s, [])
      end
  | LBus t r =>
      match tr s t with
      | TBus a =>
          let o := [OBus t a (parent s a) r] in
          match r with
          | None => (w_tr s (upd (tr s) t TDead), o)
          | Some v => (ask (give_back (w_st s (upd (status s) a (Some v))) t a) t TSelG TGet, o)
          end
      | _ => (s, [])
      end
  end.
Definition run (ls : list lab) : xs * list out := run_machine step xs0 ls.
End Xlt.
