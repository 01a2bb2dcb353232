(** Model of back door accesses to memories.

    - reg/uvm_mem.py: poke 801-838, peek 860-897, get_backdoor 1250-1262, has_hdl_path 1329-1332,
      get_full_hdl_path 1370-1398, backdoor_read 1417-1418, backdoor_write 1429-1453,
      backdoor_read_func 1465-1515;
    - dpi/uvm_hdl.py: split_hdl_path, uvm_hdl_read, uvm_hdl_deposit, get_next_obj 18-77, with the
      simulator Verilator (21-31), the only one for which the index of an element is split off.

    The paths of blocks and add_hdl_path_slice are those of HdlModel.v. Simplified: offsets are not
    negative; indices in paths other than that of the element are left out, as are attributes every
    handle has; an element takes every value written and shows it at once; indexing anything but an
    array raises. A user-defined back door has coroutines read and write (uvm_reg_backdoor.py
    142-181); it is found by get_backdoor at the memory or at a block around it. The front door
    parts and the calls around them are in MemModel.v and McbModel.v. *)
From Coq Require Import ZArith List Bool Arith String.
From Verif Require Import HdlModel.
Import ListNotations.
Open Scope Z_scope.

Record mem_cfg := MemCfg {
  mblocks : list bnode;                              (* the blocks around the memory, innermost first *)
  mpaths : list (string * list (list slice_));       (* the memory's paths, by abstraction *)
  user : bool;                                       (* get_backdoor() is not None *)
  width : Z                                          (* m_n_bits, positive *)
}.
(** 1372-1373, 1330-1331 *)
Definition mkind (c : mem_cfg) (kind : string) : string := if String.eqb kind "" then default_kind (mblocks c) else kind.
(** 1370-1398, with separator "."; also the number of errors *)
Definition mem_paths (c : mem_cfg) (kind : string) : list (list slice_) * nat :=
  let kind := mkind c kind in
  match lookup kind (mpaths c) with
  | None => ([], 1%nat)
  | Some own =>
      let '(par, e) := block_paths kind "." (mblocks c) in
      (flat_map (fun con => map (fun x =>
          map (fun s => if String.eqb (spath s) "" then Slice x (-1) (-1)
                        else Slice (x ++ "." ++ spath s)%string (soff s) (ssize s)) con) par) own, e)
  end.

(** The simulated design, with arrays *)
Inductive node := Sig (v : Z) | Arr (ws : list Z) | Scope (kids : list (string * node)).
Definition kid (t : node) (n : string) : option node := match t with Scope l => lookup n l | _ => None end.
(** get_next_obj 71-77 *)
Fixpoint walk (t : node) (ns : list string) : node :=
  match ns with
  | [] => t
  | n :: ns => walk (match kid t n with Some t' => t' | None => t end) ns
  end.
(** uvm_hdl_read of p[k], 35-47; [None]: it raises *)
Definition read_word (t : node) (p : string) (k : nat) : option Z :=
  match walk t (split_dot p) with Arr ws => nth_error ws k | _ => None end.
(** uvm_hdl_deposit of p[k], 51-67 *)
Fixpoint set_nth (k : nat) (v : Z) (l : list Z) : list Z :=
  match l, k with [], _ => [] | _ :: l, O => v :: l | x :: l, S k => x :: set_nth k v l end.
Fixpoint replace (n : string) (t' : node) (l : list (string * node)) : list (string * node) :=
  match l with
  | [] => []
  | (k, x) :: l => if String.eqb n k then (k, t') :: l else (k, x) :: replace n t' l
  end.
Fixpoint put_at (t : node) (ns : list string) (k : nat) (v : Z) : option node :=
  match ns with
  | [] => match t with Arr ws => if Nat.ltb k (List.length ws) then Some (Arr (set_nth k v ws)) else None | _ => None end
  | n :: ns =>
      match kid t n with
      | None => put_at t ns k v
      | Some t' =>
          match put_at t' ns k v, t with
          | Some t2, Scope l => Some (Scope (replace n t2 l))
          | _, _ => None
          end
      end
  end.

(** 1441-1450: what is written for a slice; [None]: a shift by a negative number raises *)
Definition slice_value (s : slice_) (v : Z) : option Z :=
  if soff s <? 0 then Some v
  else if ssize s <? 0 then None
  else Some (Z.land (Z.shiftr v (soff s)) (Z.shiftl 1 (ssize s) - 1)).
(** 1429-1453. The second component is false if it raises. *)
Fixpoint deposits (t : node) (ws : list (string * nat * option Z)) : node * bool :=
  match ws with
  | [] => (t, true)
  | (p, k, v) :: ws =>
      match v with
      | None => (t, false)
      | Some v => match put_at t (split_dot p) k v with None => (t, false) | Some t' => deposits t' ws end
      end
  end.
Fixpoint jobs (ps : list (list slice_)) (off : nat) (vals : list Z) : list (string * nat * option Z) :=
  match vals with
  | [] => []
  | v :: vals => flat_map (fun con => map (fun s => (spath s, off, slice_value s v)) con) ps ++ jobs ps (S off) vals
  end.
(** the design, whether it did not raise, the number of errors; the status is then OK *)
Definition backdoor_write (c : mem_cfg) (t : node) (kind : string) (off : nat) (vals : list Z) : node * bool * nat :=
  let '(ps, e) := mem_paths c kind in
  let '(t', ok) := deposits t (jobs ps off vals) in (t', ok, e).

(** 1479-1498: one path; reading a slice with a position always raises (a number has no append) *)
Fixpoint read_con (t : node) (k : nat) (con : list slice_) (val : Z) : option Z :=
  match con with
  | [] => Some val
  | s :: con =>
      if soff s <? 0 then match read_word t (spath s) k with Some v => read_con t k con v | None => None end
      else None
  end.
(** 1476-1510: the paths of one element. The second component is false if copies differ. *)
Fixpoint read_paths (n : Z) (t : node) (k : nat) (ps : list (list slice_)) (first : bool) (cur : Z) : option (Z * bool) :=
  match ps with
  | [] => Some (cur, true)
  | con :: ps =>
      match read_con t k con 0 with
      | None => None
      | Some v =>
          let v := Z.land v (Z.shiftl 1 n - 1) in
          let cur := if first then v else cur in
          if v =? cur then read_paths n t k ps false cur else Some (cur, false)
      end
  end.
Fixpoint read_words (n : Z) (t : node) (ps : list (list slice_)) (off : nat) (vals : list Z) : option (list Z * bool) :=
  match vals with
  | [] => Some ([], true)
  | x :: vals =>
      match read_paths n t off ps true x with
      | None => None
      | Some (v, true) => match read_words n t ps (S off) vals with Some (r, b) => Some (v :: r, b) | None => None end
      | Some (v, false) => Some (v :: vals, false)
      end
  end.
(** [None]: it raises; else the values, whether the status is OK and the number of errors *)
Definition backdoor_read (c : mem_cfg) (t : node) (kind : string) (off : nat) (vals : list Z) : option (list Z * bool * nat) :=
  let '(ps, e) := mem_paths c kind in
  match read_words (width c) t ps off vals with
  | None => None
  | Some (r, b) => Some (r, b, if b then e else S e)
  end.

Definition has_path (c : mem_cfg) (kind : string) : bool :=
  match lookup (mkind c kind) (mpaths c) with Some _ => true | None => false end.
(** [Returned ok values errors]: what is appended to status and value *)
Inductive outcome := Raised | Returned (ok : bool) (values : list Z) (errors : nat).
(** 801-838. The coroutine of a user-defined back door is made and dropped (831), so the status is
    the one the item was made with, OK. *)
Definition poke (c : mem_cfg) (t : node) (kind : string) (off : nat) (v : Z) : node * outcome :=
  if negb (user c) && negb (has_path c kind) then (t, Returned false [] 1)
  else if user c then (t, Returned true [] 0)
  else let '(t', ok, e) := backdoor_write c t kind off [Z.land v (Z.shiftl 1 (width c) - 1)] in
       (t', if ok then Returned true [] e else Raised).
(** 860-897 *)
Definition peek (c : mem_cfg) (t : node) (kind : string) (off : nat) : outcome :=
  if negb (user c) && negb (has_path c kind) then Returned false [] 1
  else if user c then Returned true [0] 0
  else match backdoor_read c t kind off [0] with
       | None => Raised
       | Some (r, ok, e) => Returned ok (firstn 1 r) e
       end.
