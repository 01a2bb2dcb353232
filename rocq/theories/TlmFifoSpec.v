(** Trace projections for TLM FIFOs (C04, C06, C07). *)
From Coq Require Import List Arith ZArith.
From Verif Require Import MailboxModel TlmFifoModel.
Import ListNotations.

Section Spec.
Context {A : Type}.
Implicit Types tr : list (fout A).

(** Items accepted by the FIFO / removed from it, in order. *)
Definition f_accepted tr : list A :=
  flat_map (fun o => match o with FM (OAccepted _ x) => [x] | _ => [] end) tr.
Definition f_removed tr : list A :=
  flat_map (fun o => match o with FM (ODelivered _ x) => [x] | _ => [] end) tr.
(** Items written to put_ap / get_ap, in order. *)
Definition on_put_ap tr : list A :=
  flat_map (fun o => match o with FPutAp x => [x] | _ => [] end) tr.
Definition on_get_ap tr : list A :=
  flat_map (fun o => match o with FGetAp x => [x] | _ => [] end) tr.

(** No flush, and try_get is given an empty output list. *)
Definition plain_label (l : flabel A) : Prop :=
  match l with
  | FCall _ FFlush => False
  | FCall _ (FTryGet t) => t = []
  | _ => True
  end.
End Spec.
