(** Model of sv.sscanf (src/uvm/base/sv.py 179-222, 582-611), of the integers Python's int()
    reads, and of two uses of the command line by src/uvm/base/uvm_root.py: +UVM_VERBOSITY
    (m_check_verbosity, 780-851) and +uvm_set_inst_override (m_do_factory_settings 593-607,
    m_process_inst_override 610-632).

    Texts are lists of ASCII characters. The format %f is left out (its values are floats), as
    is Python's limit on the number of digits. *)
From Coq Require Import ZArith List Bool Arith String Ascii.
From Verif Require Import Prelude CmdModel.
Import ListNotations.
Local Open Scope Z_scope.
Local Open Scope list_scope.

Definition text := list ascii.
Definition code (c : ascii) : Z := Z.of_nat (nat_of_ascii c).
Definition within (a b : Z) (c : ascii) : bool := (a <=? code c) && (code c <=? b).
Definition us : ascii := "_".
Definition nl : ascii := ascii_of_nat 10.
Definition is (c d : ascii) : bool := Ascii.eqb c d.

(** ** int(s, base): blanks around, a sign, digits with single underscores between them *)
Definition dval (base : Z) (c : ascii) : option Z :=
  let v := if within 48 57 c then code c - 48
           else if within 97 102 c then code c - 87
           else if within 65 70 c then code c - 55 else 99 in
  if v <? base then Some v else None.
Fixpoint more (base acc : Z) (s : text) : option Z :=
  match s with
  | [] => Some acc
  | c :: s =>
      match dval base c with
      | Some d => more base (acc * base + d) s
      | None =>
          if is c us then
            match s with
            | d :: s => match dval base d with Some d => more base (acc * base + d) s | None => None end
            | [] => None
            end
          else None
      end
  end.
Definition digits (base : Z) (s : text) : option Z :=
  match s with
  | [] => None
  | c :: s => match dval base c with Some d => more base d s | None => None end
  end.
Definition space (c : ascii) : bool := within 9 13 c || within 28 32 c.
Fixpoint lstrip (s : text) : text := match s with c :: r => if space c then lstrip r else s | [] => [] end.
Definition strip (s : text) : text := rev (lstrip (rev (lstrip s))).
Definition pyint (base : Z) (s : text) : option Z :=
  match strip s with
  | c :: r =>
      if is c "-"%char then option_map Z.opp (digits base r)
      else if is c "+"%char then digits base r
      else digits base (c :: r)
  | [] => None
  end.

(** ** sscanf *)
Inductive kind := KD | KH | KB | KO | KS.
(** RE_FORMATS, 582-592: the character class of the expression, what comes before it, and the
    third entry, called prefix in 201 *)
Definition cls (k : kind) (c : ascii) : bool :=
  match k with
  | KD => within 48 57 c || is c us
  | KH => within 48 57 c || within 97 102 c || within 65 70 c || is c us
  | KB => within 48 49 c || is c us
  | KO => within 48 55 c || is c us
  | KS => within 48 57 c || within 97 122 c || within 65 90 c || is c us
  end.
Definition prefix (k : kind) : text :=
  match k with KD => ["-"%char] | KH => ["0"%char; "x"%char] | KO => ["o"%char] | _ => [] end.
Definition nonempty (s : text) : bool := match s with [] => false | _ => true end.
Definition full (k : kind) (s : text) : bool :=
  match k with
  | KD => match s with
          | c :: r => if is c "-"%char then nonempty r && forallb (cls KD) r else forallb (cls KD) s
          | [] => false
          end
  | KH => match s with
          | a :: b :: r => is a "0"%char && is b "x"%char && nonempty r && forallb (cls KH) r
          | _ => false
          end
  | _ => nonempty s && forallb (cls k) s
  end.
(** match: the dollar sign also matches before a newline at the end *)
Definition matches (k : kind) (s : text) : bool :=
  full k s || match rev s with c :: r => is c nl && full k (rev r) | [] => false end.

Inductive val := VInt (z : Z) | VStr (s : text).
Definition conv (k : kind) (s : text) : option val :=
  match k with
  | KD => option_map VInt (pyint 10 s)
  | KH => option_map VInt (pyint 16 s)
  | KB => option_map VInt (pyint 2 s)
  | KO => option_map VInt (pyint 8 s)
  | KS => Some (VStr s)
  end.
Inductive sres := Vals (l : list val) | IndexErr | ValueErr.

(** 212-222, after the loop *)
Definition finish (cur : text) (ks : list kind) (res : list val) : sres :=
  match cur with
  | [] => match ks with [] => Vals res | _ => Vals [] end
  | _ =>
      match ks with
      | [] => IndexErr
      | k :: ks => match conv k cur with
                   | None => ValueErr
                   | Some v => match ks with [] => Vals (res ++ [v]) | _ => Vals [] end
                   end
      end
  end.
Definition text_eqb (a b : text) : bool := if list_eq_dec ascii_dec a b then true else false.
(** The loop, 196-210 *)
Fixpoint scan (t acc cur : text) (ks : list kind) (res : list val) : sres :=
  match t with
  | [] => finish cur ks res
  | c :: t =>
      let acc := acc ++ [c] in
      match ks with
      | [] => IndexErr                                                    (* re_list[0] *)
      | k :: ks' =>
          if matches k acc then scan t acc (cur ++ [c]) ks res
          else if nonempty cur then
            match conv k cur with
            | None => ValueErr
            | Some v => match ks' with
                        | [] => finish [] [] (res ++ [v])
                        | _ => scan t [] [] ks' (res ++ [v])
                        end
            end
          else if (Nat.leb (List.length (prefix k)) (List.length acc)) && negb (text_eqb acc (prefix k))
          then scan t [] cur ks res
          else scan t acc cur ks res
      end
  end.
(** get_regex_list, 595-611 *)
Definition fmt (c : ascii) : option kind :=
  if is c "d"%char then Some KD else if is c "h"%char then Some KH else if is c "b"%char then Some KB
  else if is c "o"%char then Some KO else if is c "s"%char then Some KS else None.
Fixpoint formats (prev : option ascii) (f : text) : list kind :=
  match f with
  | [] => []
  | c :: f =>
      match prev with
      | None => formats (Some c) f
      | Some a => match (if is a "%"%char then fmt c else None) with
                  | Some k => k :: formats None f
                  | None => formats (Some c) f
                  end
      end
  end.
Definition sscanf (t f : text) : sres := scan t [] [] (formats None f) [].

(** ** +UVM_VERBOSITY, 780-851. The level the root is given and the messages; None: int() raises. *)
Inductive note := DefVerb | MultVerb (n : nat) (used : string) (all : list string) | NstVerb (z : Z) | IllVerb.
Local Open Scope string_scope.
Definition verb_name (s : string) : option Z :=
  if String.eqb s "UVM_NONE" then Some 0 else if String.eqb s "NONE" then Some 0
  else if String.eqb s "UVM_LOW" then Some 100 else if String.eqb s "LOW" then Some 100
  else if String.eqb s "UVM_MEDIUM" then Some 200 else if String.eqb s "MEDIUM" then Some 200
  else if String.eqb s "UVM_HIGH" then Some 300 else if String.eqb s "HIGH" then Some 300
  else if String.eqb s "UVM_FULL" then Some 400 else if String.eqb s "FULL" then Some 400
  else if String.eqb s "UVM_DEBUG" then Some 500 else if String.eqb s "DEBUG" then Some 500
  else None.
Definition check_verbosity (argv : list string) : option Z * list note :=
  let values := get_arg_values argv "+UVM_VERBOSITY=" in
  let n := List.length values in
  let settings := match n with O => values | _ => (values ++ [""])%list end in      (* 792-793 *)
  match settings with
  | [] => (Some 200, [DefVerb])
  | v :: _ =>
      let w := if Nat.ltb 1 n then [MultVerb n v settings] else [] in
      match verb_name v with
      | Some l => (Some l, w)
      | None =>
          match pyint 10 (list_ascii_of_string v) with
          | None => (None, w)
          | Some z =>
              if (0 <? z)%Z then (Some z, (w ++ [NstVerb z])%list)
              else if (z =? 0)%Z then (Some 200, (w ++ [IllVerb])%list)
              else (Some z, w)
          end
      end
  end.

(** ** Overrides from the command line, 593-641 *)
(** What one argument does: an error message, or the call of set_inst_override_by_name, which
    UVMDefaultFactory does not have (uvm_factory.py 411-413). The pattern loses its last
    character as in [get_arg_matches]. m_process_type_override does nothing (641). *)
Inductive oeff := OErr (v : string) | OAttr (v : string).
Definition inst_args (argv : list string) : list string :=
  filter (fun a => starts "+UVM_SET_INST_OVERRIDE" a || starts "+uvm_set_inst_override" a) argv.
Fixpoint process_inst (l : list string) : list oeff * bool :=
  match l with
  | [] => ([], true)
  | a :: l =>
      let v := drop 23 a in
      if Nat.eqb (List.length (split comma v)) 3 then ([OAttr v], false)
      else let (e, ok) := process_inst l in (OErr v :: e, ok)
  end.
Definition factory_settings (argv : list string) : list oeff * bool := process_inst (inst_args argv).
