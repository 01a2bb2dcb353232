(** What a user expects of a sequencer, in terms of the observable events. *)
From Coq Require Import ZArith List Bool.
From Verif Require Import SeqrModel.
Import ListNotations.
Open Scope Z_scope.

(** The requests made and not yet chosen or withdrawn, oldest first. *)
Definition pend (p : list (nat * nat)) (o : out) : list (nat * nat) :=
  match o with
  | ORequested r s => p ++ [(r, s)]
  | OSelected r _ | ORemoved r => filter (fun x => negb (Nat.eqb (fst x) r)) p
  | _ => p
  end.
Definition pendings (tr : list out) : list (nat * nat) := fold_left pend tr [].

Fixpoint requests (tr : list out) : list (nat * nat) :=
  match tr with [] => [] | ORequested r s :: t => (r, s) :: requests t | _ :: t => requests t end.
Fixpoint selections (tr : list out) : list (nat * nat) :=
  match tr with [] => [] | OSelected r s :: t => (r, s) :: selections t | _ :: t => selections t end.
Fixpoint grants (tr : list out) : list (nat * nat) :=
  match tr with [] => [] | OGranted r s :: t => (r, s) :: grants t | _ :: t => grants t end.
Fixpoint withdrawals (tr : list out) : list nat :=
  match tr with [] => [] | ORemoved r :: t => r :: withdrawals t | _ :: t => withdrawals t end.

(** The response queue of a sequence, from what was stored, fetched, cleared. *)
Definition item_eqb (x z : item) : bool :=
  (i_sid x =? i_sid z) && (i_tid x =? i_tid z) && Nat.eqb (i_pay x) (i_pay z).
Fixpoint drop_first (x : item) (q : list item) : list item :=
  match q with [] => [] | z :: q' => if item_eqb x z then q' else z :: drop_first x q' end.
Definition resp1 (s : nat) (q : list item) (o : out) : list item :=
  match o with
  | OQueued s' x => if Nat.eqb s' s then q ++ [x] else q
  | OGot _ s' x => if Nat.eqb s' s then drop_first x q else q
  | OCleared s' => if Nat.eqb s' s then [] else q
  | _ => q
  end.
Definition responses (s : nat) (tr : list out) : list item := fold_left (resp1 s) tr [].

(** The handshake: one request at a time is chosen, granted, sent and taken, and
    what the driver sees in between is the item sent. *)
Inductive phase := PIdle | PSelected (r s : nat) | PGranted (s : nat) | PItem (x : item).
Definition hs1 (p : phase) (o : out) : option phase :=
  match o with
  | OSelected r s => match p with PIdle => Some (PSelected r s) | _ => None end
  | OGranted r s =>
      match p with
      | PSelected r' s' => if Nat.eqb r r' && Nat.eqb s s' then Some (PGranted s) else None
      | _ => None
      end
  | OSent s x =>
      match p with PGranted s' => if Nat.eqb s s' then Some (PItem x) else None | _ => None end
  | OItem x => match p with PItem z => if item_eqb x z then Some p else None | _ => None end
  | OTaken x => match p with PItem z => if item_eqb x z then Some PIdle else None | _ => None end
  | OOverflow => None
  | _ => Some p
  end.
Fixpoint hs (p : phase) (tr : list out) : option phase :=
  match tr with
  | [] => Some p
  | o :: t => match hs1 p o with Some p' => hs p' t | None => None end
  end.

(** The items sent, and those taken by the driver, in order. *)
Fixpoint sent (tr : list out) : list item :=
  match tr with [] => [] | OSent _ x :: t => x :: sent t | _ :: t => sent t end.
Fixpoint taken (tr : list out) : list item :=
  match tr with [] => [] | OTaken x :: t => x :: taken t | _ :: t => taken t end.
