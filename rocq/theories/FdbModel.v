(** Model of debug_create_by_type, src/uvm/base/uvm_factory.py: debug_create_by_type 872-873,
    m_debug_create 877-901, m_debug_display 905-977, on the factory of FactoryModel.v.

    The columns and the texts around them are left out: what is modelled are the rows, with the
    mark "x " of those ignored, and the type of the last line. Type overrides have the path "*"
    (UVMFactoryOverride 60-76), for which a row has no pattern here. *)
From Coq Require Import List Bool Arith.
From Verif Require Import Prelude FactoryModel.
Import ListNotations.

Section Debug.
Context (tname : nat -> option nat).
Context (pmatch : nat -> nat -> bool).

(** an entry of m_override_info: an override, whether it is one of an instance, and selected *)
Record entry := Ent { e_inst : bool; e_ovr : ovr; e_sel : bool }.
(** the overrides that the loops of 677-702 append for a type *)
Definition found (s : factory) (path : option nat) (req : nat) : list (bool * ovr) :=
  (match path with
   | None => []
   | Some p => map (pair true) (filter (fun e => match_orig tname req e && pmatch (o_path e) p) (iovr s req))
   end) ++ map (pair false) (filter (match_orig tname req) (tovr s)).
(** selected: the first of them, 683-686, 697-700 *)
Definition marked (l : list (bool * ovr)) : list entry :=
  match l with [] => [] | (i, e) :: l => Ent i e true :: map (fun x => Ent (fst x) (snd x) false) l end.
(** find_override_by_type with m_debug_pass 1, 653-718 *)
Fixpoint debug (fuel : nat) (s : factory) (path : option nat) (info : list entry) (req : nat) : fres * list entry :=
  match fuel with
  | O => (FOut, info)
  | S fuel =>
      match loop_index 0 (map e_ovr info) req with
      | Some _ => (FType req, info)
      | None =>
          match found s path req with
          | [] => (FType req, info)
          | (i, e) :: l =>
              if Nat.eqb (o_type e) req then (FType req, info ++ marked ((i, e) :: l))
              else debug fuel s path (info ++ marked ((i, e) :: l)) (o_type e)
          end
      end
  end.
(** a row of 939-961: whether it is without the "x", the type overridden, the pattern of an instance
    override, the override *)
Record drow := DRow { d_used : bool; d_of : option nat; d_path : option nat; d_type : nat }.
Definition row_of (e : entry) : drow :=
  DRow (e_sel e) (o_orig (e_ovr e)) (if e_inst e then Some (o_path (e_ovr e)) else None) (o_type (e_ovr e)).
(** 877-901 for a type: the type of the last line and the rows, and the factory afterwards *)
Definition debug_create (fuel : nat) (s : factory) (req : nat) (path : option nat) : fres * list drow * factory :=
  let s := ensure tname s req in
  let '(r, info) := debug fuel s path [] req in
  (r, map row_of info, s).
End Debug.
