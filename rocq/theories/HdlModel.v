(** Model of back door accesses to registers and of the register access test.

    - reg/uvm_reg_block.py: add_hdl_path 1179-1182, get_full_hdl_path 1232-1267,
      get_default_hdl_path 1298-1301, set_hdl_path_root 1317-1320;
    - reg/uvm_reg.py: add_hdl_path_slice 1930-1956, has_hdl_path 1959-1979, get_full_hdl_path
      2006-2061, backdoor_write 2080-2112, backdoor_read_func 2116-2174, the back door parts of
      do_write 1455-1487 and do_read 1631-1687, the choice of the path 1293-1303, mirror 1065-1146;
    - dpi/uvm_hdl.py: split_hdl_path, uvm_hdl_read, uvm_hdl_deposit, get_next_obj 18-72;
    - reg/sequences/uvm_reg_access_seq.py: the test of one register, 73-170.

    The fields and the prediction are those of RegModel.v. Front door accesses go to a design
    [wr]/[rd] as in RegSeqModel.v, with automatic prediction. Simplified: the simulator's signals
    take every value written and show it at once; index elements in paths (Verilator, 21-31) and the
    attributes every handle has are left out. Not modelled: user-defined back doors (UVMReg and
    UVMRegBlock have no set_backdoor), callbacks, messages other than errors. *)
From Coq Require Import ZArith List Bool Arith String Ascii.
From Verif Require Import RegFieldModel RegModel.
Import ListNotations.
Open Scope Z_scope.

(** ** Paths *)
(** A block: its default abstraction (uvm_reg_block.py 93, "RTL"; set_default_hdl_path 1277-1284),
    the paths added for every abstraction and the root paths. *)
Record bnode := BNode {
  bdefault : string; bpaths : list (string * list string); broots : list (string * string)
}.
Fixpoint lookup {A} (k : string) (l : list (string * A)) : option A :=
  match l with [] => None | (k', v) :: l => if String.eqb k k' then Some v else lookup k l end.
(** 1298-1301; the blocks are given from the innermost one on *)
Fixpoint default_kind (bs : list bnode) : string :=
  match bs with
  | [] => EmptyString
  | b :: bs => if String.eqb (bdefault b) "" then default_kind bs else bdefault b
  end.
(** 1232-1267. Also the number of errors. An empty [kind] stays empty: it is the default of every
    block above. *)
Definition join (sep x h : string) : string := if String.eqb h "" then x else (x ++ sep ++ h)%string.
Fixpoint block_paths (kind sep : string) (bs : list bnode) : list string * nat :=
  match bs with
  | [] => ([], O)
  | b :: bs =>
      match lookup kind (broots b) with
      | Some p => (if String.eqb p "" then [] else [p], O)
      | None =>
          match lookup kind (bpaths b) with
          | None => ([], 1%nat)
          | Some own =>
              let '(par, e) := block_paths kind sep bs in
              (flat_map (fun h => match par with
                                  | [] => if String.eqb h "" then [] else [h]
                                  | _ => map (fun x => join sep x h) par
                                  end) own, e)
          end
      end
  end.

(** uvm_reg_model.py 104-108; offset -1: the whole register *)
Record slice_ := Slice { spath : string; soff : Z; ssize : Z }.
Record cfg := Cfg {
  blocks : list bnode;                              (* the blocks around the register, innermost first *)
  rpaths : list (string * list (list slice_));      (* the register's paths, by abstraction *)
  in_file : bool;                                   (* the register is in a register file *)
  dmap : via;                                       (* its default map *)
  nc : list bool;                                   (* for every field, get_compare() is UVM_NO_CHECK *)
  bcheck : bool; fcheck : bool                      (* check on read, of the back door and of the maps *)
}.
(** 1930-1956 *)
Fixpoint with_entry {A} (k : string) (v : A) (l : list (string * A)) : list (string * A) :=
  match l with
  | [] => [(k, v)]
  | (k', x) :: l => if String.eqb k k' then (k', v) :: l else (k', x) :: with_entry k v l
  end.
Definition add_slice (ps : list (string * list (list slice_))) (kind name : string) (off sz : Z) (first : bool) :=
  let s := Slice name off sz in
  let old := match lookup kind ps with Some l => l | None => [] end in
  let new := match rev old with
             | last :: before => if first then old ++ [[s]] else rev before ++ [last ++ [s]]
             | [] => [[s]]
             end in
  with_entry kind new ps.

(** 1959-1979 with kind "" *)
Definition has_path (c : cfg) : bool :=
  match lookup (default_kind (blocks c)) (rpaths c) with Some _ => true | None => false end.
(** 2006-2061 with kind "" and separator "." *)
Definition full_hdl_paths (c : cfg) : list (list slice_) * nat :=
  let kind := default_kind (blocks c) in
  match lookup kind (rpaths c) with
  | None => ([], 1%nat)
  | Some own =>
      let '(par, e) := block_paths kind "." (blocks c) in
      (flat_map (fun con => map (fun x =>
          map (fun s => if String.eqb (spath s) "" then Slice x (-1) (-1)
                        else Slice (x ++ "." ++ spath s)%string (soff s) (ssize s)) con) par) own, e)
  end.

(** ** The simulated design *)
Inductive node := Sig (v : Z) | Scope (kids : list (string * node)).
(** path.split('.') *)
Fixpoint split_dot (s : string) : list string :=
  match s with
  | EmptyString => [EmptyString]
  | String c s' =>
      match split_dot s' with
      | [] => [String c EmptyString]
      | w :: ws => if Ascii.eqb c "." then EmptyString :: w :: ws else String c w :: ws
      end
  end.
(** get_next_obj, 66-72: a name that the object does not have leaves the object as it is *)
Definition kid (t : node) (n : string) : option node := match t with Sig _ => None | Scope l => lookup n l end.
Fixpoint walk (t : node) (ns : list string) : node :=
  match ns with
  | [] => t
  | n :: ns => walk (match kid t n with Some t' => t' | None => t end) ns
  end.
(** 34-45; [None]: the conversion to a number raises (a scope) *)
Definition peek (t : node) (p : string) : option Z :=
  match walk t (split_dot p) with Sig v => Some v | Scope _ => None end.
(** 48-63; [None]: a scope has no value to set *)
Fixpoint replace (n : string) (t' : node) (l : list (string * node)) : list (string * node) :=
  match l with
  | [] => []
  | (k, x) :: l => if String.eqb n k then (k, t') :: l else (k, x) :: replace n t' l
  end.
Fixpoint put_at (t : node) (ns : list string) (v : Z) : option node :=
  match ns with
  | [] => match t with Sig _ => Some (Sig v) | Scope _ => None end
  | n :: ns =>
      match kid t n with
      | None => put_at t ns v
      | Some t' =>
          match put_at t' ns v, t with
          | Some t2, Scope l => Some (Scope (replace n t2 l))
          | _, _ => None
          end
      end
  end.
Definition deposit (t : node) (p : string) (v : Z) : option node := put_at t (split_dot p) v.

(** ** Back door operations of a register *)
Inductive err :=
| ENoPath                (* a block has no path for the abstraction *)
| EDiffer                (* 2162-2166: the paths of a register show different values *)
| ECheck.                (* 1363: do_check *)

(** 2136-2155. A slice with an offset is read into a number, which has no append(): raises. *)
Fixpoint read_concat (t : node) (val : Z) (con : list slice_) : option Z :=
  match con with
  | [] => Some val
  | s :: con =>
      if soff s <? 0 then match peek t (spath s) with Some v => read_concat t v con | None => None end
      else None
  end.
Inductive bread := BVal (v : Z) | BDiffer (v : Z) | BRaise.
(** 2133-2166; [cur] is rw.value, replaced by the first path's value *)
Fixpoint read_paths (t : node) (n : Z) (first : bool) (cur : Z) (ps : list (list slice_)) : bread :=
  match ps with
  | [] => BVal cur
  | con :: ps =>
      match read_concat t 0 con with
      | None => BRaise
      | Some v =>
          let v := Z.land v (Z.shiftl 1 n - 1) in
          let cur := if first then v else cur in
          if v =? cur then read_paths t n false cur ps else BDiffer cur
      end
  end.
(** 2095-2108; the boolean: raised on the way *)
Fixpoint write_concat (t : node) (v : Z) (con : list slice_) : node * bool :=
  match con with
  | [] => (t, false)
  | s :: con =>
      let x := if soff s <? 0 then v else Z.land (Z.shiftr v (soff s)) (Z.shiftl 1 (ssize s) - 1) in
      match deposit t (spath s) x with
      | Some t' => write_concat t' v con
      | None => (t, true)
      end
  end.
Fixpoint write_paths (t : node) (v : Z) (ps : list (list slice_)) : node * bool :=
  match ps with
  | [] => (t, false)
  | con :: ps => match write_concat t v con with (t', false) => write_paths t' v ps | r => r end
  end.

(** [rest]: what the design has besides the signals; [held]: the register's lock is taken *)
Record st (H : Type) := St { rg : reg; sigs : node; rest : H; held : bool }.
Arguments St {H}. Arguments rg {H}. Arguments sigs {H}. Arguments rest {H}. Arguments held {H}.
Inductive outcome := Done (ok : bool) (v : Z) | Raises | Hangs.
Section Access.
Context {H : Type}.
Definition D := (node * H)%type.
Variables (wr : D -> via -> Z -> D * bool) (rd : D -> via -> D * Z * bool).
Notation st := (st H).

(** ** Front door, 1488-1517 and 1688-1723 (RegModel.v), with the check on read *)
Definition front_write (s : st) (v : Z) (m : via) : st * outcome * list err :=
  if held s then (s, Hangs, [])
  else
    let '(bv, r) := reg_write (rg s) v m in
    let '((t, h), ok) := wr (sigs s, rest s) m bv in
    (St r t h false, Done ok bv, []).
Definition front_read_ (c : cfg) (s : st) (m : via) : st * outcome * list err :=
  let exp := reg_get (rg s) in
  let '((t, h), v, ok) := rd (sigs s, rest s) m in
  (St (reg_read (rg s) v m) t h (held s), Done ok v,
   if fcheck c && ok && negb (do_check (combine (fields (rg s)) (nc c)) exp v m) then [ECheck] else []).

(** ** Back door write: write() 896-915, do_write 1405-1487. The lock is left taken if the call
    raises. *)
Definition upd (s : st) (r : reg) (t : node) (l : bool) : st := St r t (rest s) l.
Definition rw_paths (c : cfg) : list (list slice_) := fst (full_hdl_paths c).
Definition path_errs (c : cfg) : list err := repeat ENoPath (snd (full_hdl_paths c)).
Definition merge (c : cfg) (fs : list field) (cur v : Z) : Z :=
  fold_left (fun acc f => Z.lor acc (Z.shiftl (XpredictX f (slice cur f) (slice v f) (dmap c)) (lsb f))) fs 0.
Definition back_write (c : cfg) (s : st) (v : Z) : st * outcome * list err :=
  if held s then (s, Hangs, [])
  else
    let r := reg_set (rg s) v in
    if in_file c then (upd s r (sigs s) true, Raises, [])                       (* 1973-1975 *)
    else
      let bv := pre_write_value r v in
      match read_paths (sigs s) (n_bits r) true bv (rw_paths c) with
      | BRaise => (upd s r (sigs s) true, Raises, path_errs c)
      | BDiffer _ => (upd s r (sigs s) false, Done false v, path_errs c ++ [EDiffer])
      | BVal cur =>
          let fv := merge c (fields r) cur bv in
          let '(t, x) := write_paths (sigs s) fv (rw_paths c) in
          if x then (upd s r t true, Raises, path_errs c ++ path_errs c)
          else (upd s (fst (reg_predict r fv PWrite BackPath Backdoor (-1))) t false, Done true fv,
                path_errs c ++ path_errs c)
      end.

(** ** Back door read: do_read 1631-1687, called with the lock taken (XreadX) *)
Definition field_mask (f : field) : Z := Z.shiftl (Z.shiftl 1 (size f) - 1) (lsb f).
Definition after_read (fs : list field) (value : Z) : Z :=
  fold_left (fun v f =>
    let acc := get_access f Backdoor in
    if is_in acc [RC; WRC; WSRC; W1SRC; W0SRC] then Z.land v (Z.lnot (field_mask f))
    else if is_in acc [RS; WRS; WCRS; W1CRS; W0CRS] then Z.lor v (field_mask f)
    else v) fs value.
Definition wo_mask (fs : list field) : Z :=
  fold_left (fun v f =>
    if is_in (get_access f Backdoor) [WO; WOC; WOS; WO1] then Z.lor v (field_mask f) else v) fs 0.
Definition back_read_ (c : cfg) (s : st) : st * outcome * list err :=
  if in_file c then (s, Raises, [])
  else
    let r := rg s in
    let exp := reg_get r in
    match read_paths (sigs s) (n_bits r) true 0 (rw_paths c) with
    | BRaise => (s, Raises, path_errs c)
    | BDiffer v => (s, Done false v, path_errs c ++ [EDiffer])
    | BVal v =>
        let v2 := after_read (fields r) v in
        let '(t, x) := if v2 =? v then (sigs s, false) else write_paths (sigs s) v2 (rw_paths c) in
        let es := path_errs c ++ (if v2 =? v then [] else path_errs c) in
        if x then (upd s r t (held s), Raises, es)
        else
          let seen := Z.land v (Z.lnot (wo_mask (fields r))) in
          let es2 := if bcheck c && negb (do_check (combine (fields r) (nc c)) exp seen Backdoor) then [ECheck] else [] in
          (upd s (fst (reg_predict r seen PRead BackPath Backdoor (-1))) t (held s), Done true seen, es ++ es2)
    end.

(** ** write(), read() and mirror() with a path; [true]: the back door. Without a path for the back
    door the front door is used (1296-1301); has_path raises in a register file. *)
Definition uses_back (c : cfg) (back : bool) : bool := back && (in_file c || has_path c).
Definition write (c : cfg) (s : st) (back : bool) (v : Z) (m : via) : st * outcome * list err :=
  if uses_back c back then back_write c s v else front_write s v m.
Definition lock (s : st) (b : bool) : st := St (rg s) (sigs s) (rest s) b.
(** 1131-1144 around XreadX; a read that raises leaves the lock taken. [check]: UVM_CHECK *)
Definition locked_read (c : cfg) (s : st) (back check : bool) (m : via) : st * outcome * list err :=
  if held s then (s, Hangs, [])
  else
    let exp := reg_get_mirrored (rg s) in
    let '(s1, o, es) := if uses_back c back then back_read_ c (lock s true) else front_read_ c (lock s true) m in
    match o with
    | Done ok v =>
        (lock s1 false, o,
         es ++ (if check && negb (do_check (combine (fields (rg s1)) (nc c)) exp v m) then [ECheck] else []))
    | _ => (s1, o, es)
    end.
(** 918-965 *)
Definition read (c : cfg) (s : st) (back : bool) (m : via) := locked_read c s back false m.
(** 1065-1146; the map of a back door mirror is the back door's (1123-1124) *)
Definition mirror (c : cfg) (s : st) (back check : bool) (m : via) :=
  locked_read c s back check (if uses_back c back then Backdoor else m).

(** ** The register access test, uvm_reg_access_seq.py 73-170 *)
(** 100-117: whether the register is left out *)
Definition known (p : policy) : bool := match p with NOACCESS | USER _ => false | _ => true end.
Fixpoint skipped (fs : list field) (ms : list via) : bool :=
  match ms with
  | [] => false
  | m :: ms =>
      negb (forallb (fun f => known (get_access f m)) fs) ||
      forallb (fun f => is_in (get_access f m) [RO]) fs || skipped fs ms
  end.
(** 127-170. A status that is not OK is a number, which has no name(): raises. The boolean: all
    steps were done. *)
Definition is_ok (o : outcome) : bool := match o with Done true _ => true | _ => false end.
Definition access_map (c : cfg) (s : st) (m : via) : st * list err * bool :=
  let v := reg_get (rg s) in
  let '(s1, o1, e1) := write c s false (Z.lnot v) m in
  if negb (is_ok o1) then (s1, e1, false)
  else
    let '(s2, o2, e2) := mirror c s1 true true Backdoor in
    if negb (is_ok o2) then (s2, e1 ++ e2, false)
    else
      let '(s3, o3, e3) := write c s2 true v m in
      if negb (is_ok o3) then (s3, e1 ++ e2 ++ e3, false)
      else
        let '(s4, o4, e4) := mirror c s3 false true m in
        (s4, e1 ++ e2 ++ e3 ++ e4, is_ok o4).
Fixpoint access_maps (c : cfg) (s : st) (ms : list via) : st * list err * bool :=
  match ms with
  | [] => (s, [], true)
  | m :: ms =>
      let '(s1, e1, b1) := access_map c s m in
      if b1 then let '(s2, e2, b2) := access_maps c s1 ms in (s2, e1 ++ e2, b2) else (s1, e1, false)
  end.
Definition access_test (c : cfg) (s : st) (ms : list via) : st * list err * bool :=
  if skipped (fields (rg s)) ms then (s, [], true) else access_maps c s ms.
End Access.
