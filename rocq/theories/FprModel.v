(** Model of the printout of the factory, src/uvm/base/uvm_factory.py: register 158-201,
    set_type_override_by_type 203-271, set_type_override_by_name 274-336,
    check_inst_override_exists 338-371, set_inst_override_by_type 374-409, convert2string 721-853,
    print_factory 855-863.

    FactoryModel.v has the lookup of overrides, for arbitrary types; here every type has a name of
    its own that is neither empty nor "<unknown>", so that a type is given by its name. As there,
    m_inst_override_name_queues and m_wildcard_inst_overrides are never filled. The pools
    (m_type_names, m_types) are lists of entries in the order of insertion; that the loop of
    837-849 visits every entry is C11. *)
From Coq Require Import List Bool Arith String Ascii.
From Verif Require Import SvModel.
Import ListNotations.
Local Open Scope string_scope.

(** set an entry of a dictionary: a new key comes last *)
Fixpoint put {A} (k : string) (v : A) (l : list (string * A)) : list (string * A) :=
  match l with
  | [] => [(k, v)]
  | (k', v') :: l => if String.eqb k k' then (k, v) :: l else (k', v') :: put k v l
  end.
Fixpoint look {A} (k : string) (l : list (string * A)) : option A :=
  match l with [] => None | (k', v) :: l => if String.eqb k k' then Some v else look k l end.

(** type overrides: orig_type, orig_type_name, ovrd_type_name *)
Record ovr := Ovr { o_orig : option string; o_name : string; o_type : string }.
Record fac := Fac {
  names : list (string * string);                                   (* m_type_names *)
  types : list string;                                              (* m_types *)
  tovr : list ovr;                                                  (* m_type_overrides *)
  iovr : list (string * list (string * string * string))            (* m_inst_override_queues: orig_type_name,
                                                                       full_inst_path, ovrd_type_name *)
}.
Definition fac0 : fac := Fac [] [] [] [].

(** 172-186 *)
Definition register (s : fac) (t : string) : fac :=
  Fac (match look t (names s) with Some _ => names s | None => put t t (names s) end)
      (if existsb (String.eqb t) (types s) then types s else types s ++ [t]) (tovr s) (iovr s).
Definition ensure (s : fac) (t : string) : fac := if existsb (String.eqb t) (types s) then s else register s t.
(** 203-271 *)
Definition same_type (o : string) (e : ovr) : bool :=
  match o_orig e with Some x => String.eqb x o | None => false end || String.eqb (o_name e) o.
Definition set_type_by_type (s : fac) (o t : string) (replace : bool) : fac :=
  let s := ensure (ensure s o) t in
  if existsb (same_type o) (tovr s) then
    if replace then Fac (names s) (types s) (map (fun e => if same_type o e then Ovr (Some o) o t else e) (tovr s)) (iovr s)
    else s
  else Fac (names s) (types s) (tovr s ++ [Ovr (Some o) o t]) (iovr s).
(** 274-336 *)
Definition set_type_by_name (s : fac) (n1 n2 : string) (replace : bool) : fac :=
  match look n2 (names s) with
  | None => s
  | Some t =>
      if String.eqb n1 n2 then s
      else if existsb (fun e => String.eqb (o_name e) n1) (tovr s) then
        if replace then
          Fac (names s) (types s) (map (fun e => if String.eqb (o_name e) n1 then Ovr (o_orig e) (o_name e) n2 else e) (tovr s)) (iovr s)
        else s
      else Fac (put n1 t (names s)) (types s)
             (tovr s ++ [Ovr (look n1 (names s)) (match look n1 (names s) with Some o => o | None => n1 end) t]) (iovr s)
  end.
(** 338-409 *)
Definition trip_eqb (a b : string * string * string) : bool :=
  let '(x, y, z) := a in let '(x', y', z') := b in String.eqb x x' && String.eqb y y' && String.eqb z z'.
Definition set_inst_by_type (s : fac) (o t path : string) : fac :=
  let s := ensure (ensure s o) t in
  let q := match look o (iovr s) with Some q => q | None => [] end in
  if existsb (trip_eqb (o, path, t)) q then s
  else Fac (names s) (types s) (tovr s) (put o (q ++ [(o, path, t)])%list (iovr s)).

Inductive op := Reg (t : string) | TypeT (o t : string) (replace : bool) | TypeN (n1 n2 : string) (replace : bool) | InstT (o t path : string).
Definition step (s : fac) (o : op) : fac :=
  match o with
  | Reg t => register s t
  | TypeT o t r => set_type_by_type s o t r
  | TypeN a b r => set_type_by_name s a b r
  | InstT o t p => set_inst_by_type s o t p
  end.
(** The factory after the calls, the newest of which is the first *)
Fixpoint after (h : list op) : fac := match h with [] => fac0 | o :: h => step (after h) o end.

(** *** 721-853 *)
(** a piece of the text; [Total n]: the line of 834 with the number n *)
Inductive piece := T (s : string) | Total (n : nat).
Definition nl : string := String (ascii_of_nat 10) "".
Fixpoint rep (c : ascii) (n : nat) : string := match n with O => "" | S n => String c (rep c n) end.
(** space[1:k] and dash[1:k], 758-759, for k not negative *)
Definition space (k : nat) : string := substring 1 (k - 1) (rep " " 100).
Definition dash (k : nat) : string := substring 1 (k - 1) (rep "-" 100).
(** 738-747: the queues by the type name of the queue object (UVMQueue.get_type_name) *)
Definition sorted (s : fac) : list (string * list (string * string * string)) :=
  fold_left (fun d kq => put "uvm_queue" (snd kq) d) (iovr s) [].
(** 765-776 *)
Fixpoint widths (rows : list (string * string * string)) (m : nat * nat * nat) : nat * nat * nat :=
  match rows with
  | [] => m
  | (a, b, c) :: rows =>
      let '(m1, m2, m3) := m in
      widths rows (if Nat.ltb m1 (length a) then length a else m1, if Nat.ltb m2 (length b) then length b else m2, if Nat.ltb m3 (length c) then length c else m3)
  end.
Definition least (n m : nat) : nat := if Nat.ltb m n then n else m.
Definition inst_row (m1 m2 : nat) (r : string * string * string) : list piece :=
  let '(a, b, c) := r in
  [T ("  " ++ a ++ space (m1 - length a) ++ "  " ++ b ++ space (m2 - length b)); T ("  " ++ c ++ nl)].
Fixpoint type_widths (es : list ovr) (m1 m2 : nat) : nat * nat :=
  match es with
  | [] => (m1, m2)
  | e :: es => type_widths es (if Nat.ltb m1 (length (o_name e)) then length (o_name e) else m1) (if Nat.ltb m2 (length (o_type e)) then length (o_type e) else m2)
  end.
Definition overrides_text (s : fac) : list piece :=
  match tovr s, sorted s with
  | [], [] => [T ("  No instance or type overrides are registered with this factory" ++ nl)]
  | _, _ =>
      let rows := List.concat (map snd (sorted s)) in
      let '(m1, m2, m3, inst) :=
        match sorted s with
        | [] => (0, 0, 0, [T ("No instance overrides are registered with this factory" ++ nl)])
        | _ =>
            let '(m1, m2, m3) := widths rows (0, 0, 0) in
            let m1 := least 14 m1 in let m2 := least 13 m2 in let m3 := least 13 m3 in
            (m1, m2, m3,
             T ("Instance Overrides:" ++ nl ++ nl) ::
             T ("  Requested Type" ++ space (m1 - 14) ++ "  Override Path" ++ space (m2 - 13) ++ "  Override Type" ++ space (m3 - 13) ++ nl) ::
             T ("  " ++ dash m1 ++ "  " ++ dash m2 ++ "  " ++ dash m3 ++ nl) ::
             flat_map (inst_row m1 m2) rows)
        end in
      (inst ++
      match tovr s with
      | [] => [T (nl ++ "No type overrides are registered with this factory" ++ nl)]
      | es =>
          let '(m1, m2) := type_widths es (least 14 m1) (least 13 m2) in
          T (nl ++ "Type Overrides:" ++ nl ++ nl) ::
          T ("  Requested Type" ++ space (m1 - 14) ++ "  Override Type" ++ space (m2 - 13) ++ nl) ::
          T ("  " ++ dash m1 ++ "  " ++ dash m2 ++ nl) ::
          map (fun e => T ("  " ++ o_name e ++ space (m1 - length (o_name e)) ++ "  " ++ o_type e ++ nl)) es
      end)%list
  end.
(** 838-840; all_types is 0 (False), 1 (True) or 2 *)
Definition is_match (p s : string) : bool :=
  match uvm_is_match (list_ascii_of_string p) (list_ascii_of_string s) with Some b => b | None => false end.
Definition shows (all : nat) (e : string * string) : bool :=
  negb (Nat.ltb all 2 && is_match "uvm_*" (snd e)) && String.eqb (fst e) (snd e).
Fixpoint names_text (all : nat) (banner : bool) (es : list (string * string)) : list piece :=
  match es with
  | [] => []
  | e :: es =>
      if shows all e then
        ((if banner then [] else [T ("  Type Name" ++ nl); T ("  ---------" ++ nl)]) ++ (T ("  " ++ snd e ++ nl)%string :: names_text all true es))%list
      else names_text all banner es
  end.
Definition print (s : fac) (all : nat) : list piece :=
  (T (nl ++ "#### Factory Configuration (*)" ++ nl ++ nl)%string ::
  overrides_text s ++
  (if Nat.leb 1 all && negb (match names s with [] => true | _ => false end)
   then Total (List.length (types s)) :: names_text all false (names s) else []) ++
  [T ("(*) Types with no associated type name will be printed as <unknown>" ++ nl ++ nl ++ "####" ++ nl ++ nl)%string])%list.
