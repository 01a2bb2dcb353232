(** Model of the TLM2 sockets, src/uvm/tlm2/uvm_tlm2_sockets.py 76-346, their base classes
    src/uvm/tlm2/uvm_tlm2_sockets_base.py 63-167 and the transport methods of
    src/uvm/tlm2/uvm_tlm2_imps.py 71-156, on top of the ports of PortModel.v.

    Sockets are numbered. Socket [s] is the port [fw s]; a non-blocking one has in addition the
    backward port [bw s], an imp, export or port of its own. Simplified: a socket is connected
    to sockets only; the implementation of a target socket and of a backward imp is the user's
    object and is named by the socket. The error of an initiator socket that is given an
    implementation (158-162) has no effect on the connections and is left out. *)
From Coq Require Import ZArith List Bool Arith.
From Verif Require Import PortModel.
Import ListNotations.

Inductive skind := NbInit | NbTarget | NbPassInit | NbPassTarget | BInit | BTarget | BPassInit | BPassTarget.
Definition fw (s : nat) : nat := 2 * s.
Definition bw (s : nat) : nat := 2 * s + 1.

Section Sock.
Context (sk : nat -> skind).

(** sockets_base.py 63-167: UVM_PORT, UVM_EXPORT or UVM_IMPLEMENTATION. Backward ports: 125,
    141, sockets.py 163, 220 *)
Definition kd (p : nat) : kind :=
  if Nat.even p then
    match sk (Nat.div2 p) with
    | NbInit | NbPassInit | BInit | BPassInit => KPort
    | NbPassTarget | BPassTarget => KExport
    | NbTarget | BTarget => KImp
    end
  else
    match sk (Nat.div2 p) with
    | NbInit => KImp
    | NbPassInit => KExport
    | _ => KPort
    end.
(** uvm_tlm2_defines.py: UVM_TLM_NB_FW_MASK, UVM_TLM_NB_BW_MASK, UVM_TLM_B_MASK *)
Definition mask (p : nat) : Z :=
  if Nat.even p then
    match sk (Nat.div2 p) with
    | NbInit | NbTarget | NbPassInit | NbPassTarget => 1
    | _ => 4
    end
  else 2.
(** All of them want exactly one connection. *)
Definition one (_ : nat) : Z := 1.

(** connect(): the port connections it makes, in order (86-95, 126-129, 168-195, 229-230,
    253-264, 279-290, 308-319, 335-346) *)
Definition sock_connect (a b : nat) : list (nat * nat) :=
  (fw a, fw b) ::
  match sk a with
  | NbInit => match sk b with NbPassInit | NbPassTarget | NbTarget => [(bw b, bw a)] | _ => [] end
  | _ => []
  end.
(** whether it reports a type mismatch *)
Definition mismatch (a b : nat) : bool :=
  match sk a with
  | NbInit => match sk b with NbPassInit | NbPassTarget | NbTarget => false | _ => true end
  | BInit => match sk b with BPassInit | BPassTarget | BTarget => false | _ => true end
  | _ => false
  end.
Definition port_log (log : list (nat * nat)) : list (nat * nat) := flat_map (fun c => sock_connect (fst c) (snd c)) log.

(** ** Calls after elaboration *)
Inductive outcome :=
| Reaches (s : nat)        (* the method of the implementation of socket s runs *)
| NullDelay                (* the error; UVM_TLM_COMPLETED *)
| NoMethod                 (* AttributeError: the socket has no such method *)
| NotBound.                (* AttributeError: m_if is None *)
(** A method of port [p] that forwards to m_if, which is an imp: that of a socket *)
Definition forward (st : ports) (p : nat) : outcome :=
  match m_if st p with Some q => Reaches (Nat.div2 q) | None => NotBound end.
(** b_transport 147-156, nb_transport_fw 71-80; a target socket forwards to its own
    implementation (sockets.py 134, 236) *)
Definition b_transport (st : ports) (s : nat) (delay : bool) : outcome :=
  match sk s with
  | BInit | BPassInit | BPassTarget => if delay then forward st (fw s) else NullDelay
  | BTarget => if delay then Reaches s else NullDelay
  | _ => NoMethod
  end.
Definition nb_transport_fw (st : ports) (s : nat) (delay : bool) : outcome :=
  match sk s with
  | NbInit | NbPassInit | NbPassTarget => if delay then forward st (fw s) else NullDelay
  | NbTarget => if delay then Reaches s else NullDelay
  | _ => NoMethod
  end.
(** nb_transport_bw 119-128: sockets_base.py 98, 129, 145 *)
Definition nb_transport_bw (st : ports) (s : nat) (delay : bool) : outcome :=
  match sk s with
  | NbTarget | NbPassInit | NbPassTarget => if delay then forward st (bw s) else NullDelay
  | _ => NoMethod
  end.
End Sock.
