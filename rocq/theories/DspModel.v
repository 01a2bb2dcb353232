(** Model of the display of objections, src/uvm/base/uvm_objection.py: get_name_depth 66-72,
    get_leaf_name 75-82, get_objection_total 1028-1043, m_display_objections 1063-1126,
    convert2string 1130-1131, display_objections 1140-1142.

    m_total_count is the list of its entries, in the order of insertion; an object missing in
    m_source_count has the count 0. Objects are numbers, m_top is 0. The local pool has keys, in the
    order of insertion, and the position of its iterator plus 1 (uvm_pool.py 43-47, 140-150). *)
From Coq Require Import List Bool Arith ZArith String Ascii.
Import ListNotations.
Local Open Scope string_scope.

Section Display.
Context (full : nat -> string).

Record obn := Obn { totals : list (nat * Z); source : nat -> Z }.
Fixpoint look (o : nat) (l : list (nat * Z)) : option Z :=
  match l with [] => None | (k, v) :: l => if Nat.eqb o k then Some v else look o l end.

Fixpoint padd (k : string) (v : nat) (l : list (string * nat)) : list (string * nat) :=
  match l with
  | [] => [(k, v)]
  | (k', v') :: l => if String.eqb k k' then (k, v) :: l else (k', v') :: padd k v l
  end.
Fixpoint pget (k : string) (l : list (string * nat)) : option nat :=
  match l with [] => None | (k', v) :: l => if String.eqb k k' then Some v else pget k l end.
(** 1074-1077 *)
Definition pool_of (s : obn) : list (string * nat) :=
  fold_left (fun p e => if (0 <? snd e)%Z then padd (full (fst e)) (fst e) p else p) (totals s) [].

(** 66-82 *)
Fixpoint name_depth (n : string) : nat :=
  match n with "" => 0 | String c n => (if Ascii.eqb c "." then 1 else 0) + name_depth n end.
(** the loop from the end: the text behind the last dot, the whole name if there is none *)
Fixpoint leaf_from (i : nat) (n : string) : string :=
  match i with
  | O => n
  | S i => match get i n with
           | Some c => if Ascii.eqb c "." then substring (i + 1) (length n - (i + 1)) n else leaf_from i n
           | None => leaf_from i n
           end
  end.
Definition leaf_name (n : string) : string := leaf_from (length n) n.

(** a piece of the text: a line of an object with its two counts, the blanks before the name and
    the name; the total of 1083; the rules and titles of 1088-1091, the last rule of 1124 *)
Inductive piece := Tot (n : Z) | Head | Row (src tot : Z) (blanks : nat) (name : string) | Foot | Error.
(** blank[0:2*depth] of 83 blanks *)
Definition row (s : obn) (cur : nat) (name : string) : piece :=
  Row (source s cur) (match look cur (totals s) with Some t => t | None => 0%Z end)
      (Nat.min 83 (2 * (if String.eqb name "" then name_depth name else name_depth name + 1)))
      (if String.eqb name "" then "uvm_top" else leaf_name name).
(** 1096-1122; [pos]: keys passed by the iterator *)
Fixpoint loop (fuel : nat) (s : obn) (p : list (string * nat)) (this : string) (pos : nat) (cur : string) : list piece :=
  match fuel with
  | O => [Error]
  | S fuel =>
      match pget cur p with
      | None => [Error]
      | Some o =>
          row s o cur ::
          (if Nat.ltb pos (List.length p) && String.eqb (substring 0 (length this) cur) this
           then match nth_error p pos with Some (k, _) => loop fuel s p this (S pos) k | None => [Error] end
           else [Foot])
      end
  end.
Definition display (s : obn) (obj : option nat) : list piece :=
  let p := pool_of s in
  let o := match obj with Some o => o | None => 0 end in
  let total := match look o (totals s) with Some t => t | None => 0%Z end in
  Tot total :: if (total =? 0)%Z then [] else Head :: loop (S (List.length p)) s p (full o) 0 (full o).
End Display.
