(** Spec of TLM2 sockets: which sockets a socket is joined with, by the calls of connect(). *)
From Coq Require Import ZArith List Bool Arith.
From Verif Require Import PortModel PortProps SockModel.
Import ListNotations.

Definition blocking (k : skind) : bool := match k with BInit | BTarget | BPassInit | BPassTarget => true | _ => false end.
Definition target (k : skind) : Prop := k = NbTarget \/ k = BTarget.
Definition pass_target (k : skind) : Prop := k = NbPassTarget \/ k = BPassTarget.
Section Spec.
Context (sk : nat -> skind) (log : list (nat * nat)).
(** a.connect(b) joins the two: both blocking or both not, not a target with anything, a
    passthrough target only with targets *)
Definition joined (a b : nat) : Prop :=
  In (a, b) log /\ a <> b /\ blocking (sk a) = blocking (sk b) /\ ~ target (sk a) /\
  (pass_target (sk a) -> target (sk b) \/ pass_target (sk b)).
Inductive leads : nat -> nat -> Prop :=
| leads_refl a : leads a a
| leads_step a b c : joined a b -> leads b c -> leads a c.
(** No socket leads back to itself. *)
Definition no_loop : Prop := exists rank : nat -> nat, forall a b, joined a b -> rank b < rank a.
End Spec.

(** Sockets connected by calls [log], elaborated in any order of the ports [ord] *)
Definition sockets (sk : nat -> skind) (nm : nat -> nat) (log : list (nat * nat)) (ord : list nat) (s : ports) : Prop :=
  elaborated (kd sk) nm (mask sk) one one (port_log sk log) ord s.
