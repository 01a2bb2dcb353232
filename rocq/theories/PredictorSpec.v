(** What a predictor should do, from the transfers observed on the bus. *)
From Coq Require Import ZArith List Bool Arith.
From Verif Require Import Prelude RegFieldModel RegModel RegMapModel PredictorModel.
Import ListNotations.
Open Scope Z_scope.

(** The transfer goes to register [r]. *)
Definition for_reg (c : cfg) (r : nat) (x : xfer) : bool :=
  match lookup c (x_addr x) (is_read (x_kind x)) with Some q => Nat.eqb q r | None => false end.
Definition about (r : nat) (o : out) : bool :=
  match o with
  | OCollision q | OMismatch q | OPublished q _ _ | ORaised q | OInternal q => Nat.eqb q r
  | ONotForMe => false
  end.

(** The transfers to one register with [n] addresses, cut into accesses: an access is
    complete with its [n]-th distinct address; an address seen twice loses the access,
    the repeated transfer included; the rest is open. *)
Inductive access := Complete (l : list xfer) | Lost (l : list xfer).
Inductive accesses (n : nat) : list xfer -> list access -> list xfer -> Prop :=
| a_nil : accesses n [] [] []
| a_open xs es o x : accesses n xs es o -> ~ In (x_addr x) (map x_addr o) ->
    (length (o ++ [x]) < n)%nat -> accesses n (xs ++ [x]) es (o ++ [x])
| a_complete xs es o x : accesses n xs es o -> ~ In (x_addr x) (map x_addr o) ->
    length (o ++ [x]) = n -> accesses n (xs ++ [x]) (es ++ [Complete (o ++ [x])]) []
| a_lost xs es o x : accesses n xs es o -> In (x_addr x) (map x_addr o) ->
    accesses n (xs ++ [x]) (es ++ [Lost (o ++ [x])]) [].

(** [v] has at the place of each address the data transferred there. *)
Definition assembled (A : list Z) (w : Z) (l : list xfer) (v : Z) : Prop :=
  forall i, 0 <= i ->
    (Z.testbit v i = true <->
     exists x j, In x l /\ nth_error A j = Some (x_addr x) /\
       8 * w * Z.of_nat j <= i /\ Z.testbit (x_data x) (i - 8 * w * Z.of_nat j) = true).

(** What is heard of the accesses to a register and what becomes of it: a complete access
    is published with the kind of its first transfer and predicted as an access with
    that value. *)
Inductive heard (c : cfg) (r : nat) : reg -> list access -> list out -> reg -> Prop :=
| h_nil rg : heard c r rg [] [] rg
| h_lost rg es os rg' l : heard c r rg es os rg' -> heard c r rg (es ++ [Lost l]) (os ++ [OCollision r]) rg'
| h_complete rg es os rg' l x rest v ms :
    heard c r rg es os rg' -> l = x :: rest -> assembled (addrs c r) (width c) l v ->
    ms = (if is_read (x_kind x) && check_on_read c r
             && negb (do_check (combine (fields rg') (nocheck c r)) (reg_get_mirrored rg') v (rights_of c r))
          then [OMismatch r] else []) ->
    heard c r rg (es ++ [Complete l]) (os ++ ms ++ [OPublished r (x_kind x) v])
      (fst (reg_predict rg' v (pk (x_kind x)) FrontOrPredict (rights_of c r) (-1))).
