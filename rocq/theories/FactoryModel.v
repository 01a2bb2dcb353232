(** Model of override registration and lookup in
    src/uvm/base/uvm_factory.py (UVMDefaultFactory). *)
From Coq Require Import List Bool Arith Lia.
From Verif Require Import Prelude.
Import ListNotations.
Open Scope nat_scope.

Section Factory.
(** Types (wrapper objects), type names, instance paths and path patterns are
    numbered. [tname t] is get_type_name() of a wrapper, [None] standing for ""
    and "<unknown>". [pmatch] is uvm_is_match on instance paths and [nmatch] on
    type names (SvModel.v models uvm_is_match itself). *)
Context (tname : nat -> option nat).
Context (pmatch : nat -> nat -> bool).
Context (nmatch : nat -> nat -> bool).

(** UVMFactoryOverride, 60-76. [o_path] is meaningful for instance overrides
    only; the counters used and selected are left out. *)
Record ovr := Ovr { o_path : nat; o_name : option nat; o_orig : option nat; o_type : nat }.

(** 147-155. m_inst_override_name_queues and m_wildcard_inst_overrides are
    never filled, because set_inst_override_by_name is commented out (412-468),
    and are left out. *)
Record factory := Fac {
  names : nat -> option nat;            (* m_type_names *)
  types : nat -> bool;                  (* m_types *)
  tovr : list ovr;                      (* m_type_overrides *)
  iovr : nat -> list ovr                (* m_inst_override_queues *)
}.
Definition factory0 : factory := Fac (fun _ => None) (fun _ => false) [] (fun _ => []).

(** register, 158-201; the warnings on a name or type registered before are left out *)
Definition register (s : factory) (t : nat) : factory :=
  let nm := match tname t with
            | Some n => match names s n with
                        | Some _ => names s
                        | None => upd (names s) n (Some t)
                        end
            | None => names s
            end in
  Fac nm (upd (types s) t true) (tovr s) (iovr s).
Definition ensure (s : factory) (t : nat) : factory :=
  if types s t then s else register s t.

Definition opt_eqb (a b : option nat) : bool :=
  match a, b with Some x, Some y => Nat.eqb x y | _, _ => false end.
(** 239-242, 982-985, 989-993: same type, or same proper type name *)
Definition match_orig (req : nat) (e : ovr) : bool :=
  opt_eqb (o_orig e) (Some req) || opt_eqb (o_name e) (tname req).

(** set_type_override_by_type, 203-271 *)
Definition set_type_by_type (s : factory) (o t : nat) (replace : bool) : factory :=
  let s := ensure (ensure s o) t in
  if existsb (match_orig o) (tovr s) then
    if replace then
      Fac (names s) (types s)
        (map (fun e => if match_orig o e then Ovr (o_path e) (tname o) (Some o) t else e) (tovr s))
        (iovr s)
    else s
  else Fac (names s) (types s) (tovr s ++ [Ovr 0 (tname o) (Some o) t]) (iovr s).

(** set_type_override_by_name, 274-336. Note 336: the requested name becomes a
    name of the override type. *)
Definition set_type_by_name (s : factory) (n1 n2 : nat) (replace : bool) : factory :=
  match names s n2 with
  | None => s
  | Some t =>
      if Nat.eqb n1 n2 then s
      else
        if existsb (fun e => opt_eqb (o_name e) (Some n1)) (tovr s) then
          if replace then
            Fac (names s) (types s)
              (map (fun e => if opt_eqb (o_name e) (Some n1)
                             then Ovr (o_path e) (o_name e) (o_orig e) t else e) (tovr s))
              (iovr s)
          else s
        else
          let nm := match names s n1 with Some o => tname o | None => Some n1 end in
          Fac (upd (names s) n1 (Some t)) (types s)
              (tovr s ++ [Ovr 0 nm (names s n1) t]) (iovr s)
  end.

(** check_inst_override_exists, 338-371 *)
Definition oeqb (a b : option nat) : bool :=
  match a, b with Some x, Some y => Nat.eqb x y | None, None => true | _, _ => false end.
Definition inst_exists (s : factory) (o t pat : nat) : bool :=
  existsb (fun e => Nat.eqb (o_path e) pat && oeqb (o_orig e) (Some o)
                    && Nat.eqb (o_type e) t && oeqb (o_name e) (tname o)) (iovr s o).
(** set_inst_override_by_type, 374-409 *)
Definition set_inst_by_type (s : factory) (o t pat : nat) : factory :=
  let s := ensure (ensure s o) t in
  if inst_exists s o t pat then s
  else Fac (names s) (types s) (tovr s)
           (upd (iovr s) o (iovr s o ++ [Ovr pat (tname o) (Some o) t])).

(** ** Lookup *)
Inductive fres := FType (t : nat) | FNone | FIndexError | FOut.

(** The overrides applying to a request, instance overrides first
    (665-666, 678-680, 695-696); an empty path has no instance overrides. *)
Definition matches (s : factory) (path : option nat) (req : nat) : list ovr :=
  (match path with
   | None => []
   | Some p => filter (fun e => match_orig req e && pmatch (o_path e) p) (iovr s req)
   end) ++ filter (match_orig req) (tovr s).

(** 668-669 *)
Fixpoint loop_index (i : nat) (info : list ovr) (req : nat) : option nat :=
  match info with
  | [] => None
  | e :: l => if opt_eqb (o_orig e) (Some req) then Some i else loop_index (S i) l req
  end.

(** find_override_by_type in the debug pass (653-718 with m_debug_pass true):
    collects every matching override and follows the first. *)
Fixpoint find_debug (fuel : nat) (s : factory) (path : option nat) (info : list ovr) (req : nat)
  : fres * list ovr :=
  match fuel with
  | O => (FOut, info)
  | S k =>
      match loop_index 0 info req with
      | Some _ => (FType req, info)
      | None =>
          match matches s path req with
          | [] => (FType req, info)
          | e :: l =>
              if Nat.eqb (o_type e) req then (FType req, info ++ e :: l)
              else find_debug k s path (info ++ e :: l) (o_type e)
          end
      end
  end.

(** find_override_by_type, 653-718, normal pass. [info] is m_override_info.
    [pristine]: m_debug_pass is still the class attribute False; the first
    detected loop runs a debug pass (671-672, 872-901), which replaces
    m_override_info and leaves m_debug_pass at 0, which is not [False]; line
    674 then indexes the new list with the old index. *)
Fixpoint find (fuel : nat) (pristine : bool) (s : factory) (path : option nat)
    (info : list ovr) (req : nat) : fres :=
  match fuel with
  | O => FOut
  | S k =>
      match loop_index 0 info req with
      | Some i =>
          if pristine then
            match find_debug fuel s path [] req with
            | (FOut, _) => FOut
            | (_, info') => if i <? length info' then FType req else FIndexError
            end
          else FType req
      | None =>
          match matches s path req with
          | [] => FType req
          | e :: _ =>
              if Nat.eqb (o_type e) req then FType req
              else find k pristine s path (info ++ [e]) (o_type e)
          end
      end
  end.

(** create_object_by_type 496-514, create_component_by_type 555-571: the type
    whose instance is made *)
Definition create_by_type (fuel : nat) (pristine : bool) (s : factory) (req : nat)
    (path : option nat) : fres := find fuel pristine s path [] req.

(** find_override_by_name 581-651 and create_*_by_name 470-494, 526-553 *)
Definition create_by_name (fuel : nat) (pristine : bool) (s : factory) (n : nat)
    (path : option nat) : fres :=
  let inst :=
    match path, names s n with
    | Some p, Some rt =>
        List.find (fun e => match o_name e with
                            | Some m => nmatch m n && pmatch (o_path e) p
                            | None => false
                            end) (iovr s rt)
    | _, _ => None
    end in
  match inst with
  | Some e =>
      if opt_eqb (tname (o_type e)) (Some n) then FType (o_type e)
      else find fuel pristine s path [e] (o_type e)
  | None =>
      match List.find (fun e => opt_eqb (o_name e) (Some n)) (tovr s) with
      | Some e => find fuel pristine s path [e] (o_type e)
      | None => match names s n with Some t => FType t | None => FNone end
      end
  end.

Inductive fop :=
| Reg (t : nat)
| TypeT (o t : nat) (replace : bool)
| TypeN (n1 n2 : nat) (replace : bool)
| InstT (o t pat : nat).
Definition fstep (s : factory) (o : fop) : factory :=
  match o with
  | Reg t => register s t
  | TypeT o t r => set_type_by_type s o t r
  | TypeN n1 n2 r => set_type_by_name s n1 n2 r
  | InstT o t pat => set_inst_by_type s o t pat
  end.
Definition frun (ops : list fop) : factory := fold_left fstep ops factory0.
End Factory.
