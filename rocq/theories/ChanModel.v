(** Model of src/uvm/tlm1/uvm_tlm_req_rsp.py 208-267, UVMTLMReqRspChannel: two FIFOs
    and the exports, after connect_phase and binding (229-235).

    The exports forward to a FIFO: src/uvm/tlm1/uvm_tlm_imps.py 96-230, 323-336, with
    the imps chosen in src/uvm/tlm1/uvm_imps.py 328-332 (master) and 379-383 (slave).
    The aliased exports (238-267) are the same objects. Items of both kinds are of the
    one type [A], as in Python nothing keeps them apart. *)
From Coq Require Import ZArith List Bool Arith.
From Verif Require Import Prelude MailboxModel TlmFifoModel.
Import ListNotations.

Section Chan.
Context {A : Type}.

Record chan := Chan { req_fifo : fifo A; rsp_fifo : fifo A }.
Definition chan0 (n_req n_rsp : Z) : chan := Chan (fifo_init n_req) (fifo_init n_rsp).

Inductive export := EMaster | ESlave | EPutReq | EGetReq | EPutRsp | EGetRsp.
Inductive xop := XPut (x : A) | XTryPut (x : A) | XGet | XTryGet | XPeek | XTryPeek.
Definition is_put (o : xop) : bool := match o with XPut _ | XTryPut _ => true | _ => false end.
(** The list given to try_get is empty. *)
Definition fifo_op (o : xop) : fop A :=
  match o with
  | XPut x => FPut x | XTryPut x => FTryPut x | XGet => FGet | XTryGet => FTryGet []
  | XPeek => FPeek | XTryPeek => FTryPeek
  end.

Inductive side := Req | Rsp.
(** The FIFO a method of an export is forwarded to; None if it has no such method. *)
Definition target (e : export) (put : bool) : option side :=
  match e, put with
  | EMaster, true => Some Req      (* UVM_PUT_IMP('m_req_imp', UVMMasterImp) *)
  | EMaster, false => Some Rsp     (* UVM_GET_PEEK_IMP('m_rsp_imp', UVMMasterImp) *)
  | ESlave, true => Some Rsp       (* UVM_PUT_IMP('m_rsp_imp', UVMSlaveImp) *)
  | ESlave, false => Some Req      (* UVM_GET_PEEK_IMP('m_req_imp', UVMSlaveImp) *)
  | EPutReq, true => Some Req      (* 230 *)
  | EGetReq, false => Some Req     (* 231 *)
  | EPutRsp, true => Some Rsp      (* 233 *)
  | EGetRsp, false => Some Rsp     (* 234 *)
  | _, _ => None
  end.

(** What is seen: calls being started, what the FIFO operations give to their callers,
    and the writes of the two analysis ports (232, 235). *)
Inductive cout :=
| Called (p : nat) (e : export) (o : xop)
| Gives (o : mout A)
| OnAp (s : side) (x : A).
Definition lift (s : side) (o : fout A) : list cout :=
  match o with FM m => [Gives m] | FPutAp x => [OnAp s x] | _ => [] end.

Inductive clab := CCall (p : nat) (e : export) (o : xop) | CResume (p : nat).
Definition busy (f : fifo A) (p : nat) : bool := match procs (fm f) p with Idle => false | _ => true end.

Definition on_side (c : chan) (s : side) (l : flabel A) : chan * list cout :=
  match s with
  | Req => let '(f, o) := fstep (req_fifo c) l in (Chan f (rsp_fifo c), flat_map (lift Req) o)
  | Rsp => let '(f, o) := fstep (rsp_fifo c) l in (Chan (req_fifo c) f, flat_map (lift Rsp) o)
  end.
(** A coroutine suspended in one FIFO makes no other call. *)
Definition cstep (c : chan) (l : clab) : chan * list cout :=
  match l with
  | CCall p e o =>
      if busy (req_fifo c) p || busy (rsp_fifo c) p then (c, [])
      else match target e (is_put o) with
      | None => (c, [])
      | Some s => let '(c', out) := on_side c s (FCall p (fifo_op o)) in (c', Called p e o :: out)
      end
  | CResume p =>
      if busy (req_fifo c) p then on_side c Req (FResume p)
      else if busy (rsp_fifo c) p then on_side c Rsp (FResume p)
      else (c, [])
  end.
Definition crun (n_req n_rsp : Z) (ls : list clab) := run_machine cstep (chan0 n_req n_rsp) ls.
End Chan.
Arguments chan : clear implicits.
Arguments xop : clear implicits.
Arguments cout : clear implicits.
Arguments clab : clear implicits.
