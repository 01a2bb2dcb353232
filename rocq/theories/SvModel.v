(** Model of the helpers of src/uvm/base/sv.py. *)
From Coq Require Import ZArith List Bool Arith Lia Ascii.
From Verif Require Import Prelude PackerModel.
Import ListNotations.
Open Scope Z_scope.

(** sv.py:100-106, with fuel for the while loop *)
Fixpoint clog2_loop (fuel : nat) (value res : Z) : option Z :=
  match fuel with
  | O => None
  | S fuel => if 0 <? value then clog2_loop fuel (Z.shiftr value 1) (res + 1) else Some res
  end.
Definition clog2 (fuel : nat) (value : Z) : option Z := clog2_loop fuel (value - 1) 0.

(** sv.py:361-362; a negative shift count raises *)
Definition clear_bit (v idx : Z) : res Z :=
  if idx <? 0 then Raise else Ok (Z.land v (Z.lnot (Z.shiftl 1 idx))).
(** sv.py:327-345 *)
Definition set_bit (v idx bit : Z) : res Z :=
  if bit =? 1 then (if idx <? 0 then Raise else Ok (Z.lor v (Z.shiftl 1 idx)))
  else if bit =? 0 then clear_bit v idx
  else Raise.
(** sv.py:348-358 *)
Definition sv_get_bit (v idx : Z) : res Z :=
  if idx <? 0 then Raise else Ok (Z.land (Z.shiftr v idx) 1).
(** sv.py:365-366: int('1' * width, 2), ValueError for the empty string *)
Definition ones_str (width : Z) : list Z := repeat 1 (Z.to_nat width).
Definition parse2 (ds : list Z) : res Z :=
  match ds with [] => Raise | _ => Ok (fold_left (fun acc d => 2 * acc + d) ds 0) end.
Definition get_vector_of_ones (width : Z) : res Z := parse2 (ones_str width).

(** ** semaphore, sv.py:515-547, with processes.

    cocotb's Lock: [acquire] takes a free lock or queues; [release] hands the
    lock to the first waiter. A process that was given the lock runs on when the
    scheduler resumes it ([SResume]). [Timer(0)] after the first branch of
    [get] only delays the return. *)
Record sem := Sem {
  max_count : Z; scount : Z; locked : bool;
  held : bool;                       (* cocotb Lock: locked *)
  granted : option (nat * Z);        (* given the lock, not yet resumed *)
  waiters : list (nat * Z)
}.
Inductive sout := SGot (p : nat) (n : Z) | SFail (p : nat) | SPutDone (p : nat) (n : Z) | SRaised (p : nat).
Inductive slabel := SGet (p : nat) (n : Z) | STryGet (p : nat) (n : Z) | SPut (p : nat) (n : Z) | SResume.

Definition sem0 (n : Z) : sem := Sem n n false false None [].

Definition sstep (s : sem) (l : slabel) : sem * list sout :=
  match l with
  | SGet p n =>                                                     (* 524-534 *)
      if n <? scount s then
        (Sem (max_count s) (scount s - n) (locked s) (held s) (granted s) (waiters s), [SGot p n])
      else if max_count s <? n then (s, [SRaised p])
      else if held s then
        (Sem (max_count s) (scount s) (locked s) (held s) (granted s) (waiters s ++ [(p, n)]), [])
      else (Sem (max_count s) (scount s) (locked s) true (Some (p, n)) (waiters s), [])
  | SResume =>                                                      (* 532-534 *)
      match granted s with
      | Some (p, n) => (Sem (max_count s) (scount s - n) true (held s) None (waiters s), [SGot p n])
      | None => (s, [])
      end
  | SPut p n =>                                                     (* 536-541 *)
      if scount s <? max_count s then
        if locked s then
          match waiters s with
          | w :: ws => (Sem (max_count s) (scount s + n) false true (Some w) ws, [SPutDone p n])
          | [] => (Sem (max_count s) (scount s + n) false false (granted s) [], [SPutDone p n])
          end
        else (Sem (max_count s) (scount s + n) (locked s) (held s) (granted s) (waiters s), [SPutDone p n])
      else (s, [SPutDone p n])
  | STryGet p n =>                                                  (* 543-547 *)
      if n <=? scount s then
        (Sem (max_count s) (scount s - n) (locked s) (held s) (granted s) (waiters s), [SGot p n])
      else (s, [SFail p])
  end.
Definition srun (n : Z) (ls : list slabel) := run_machine sstep (sem0 n) ls.

(** ** Globs, sv.py:46-71 and uvm_globals.py:240-250. Strings are lists of
    characters. *)
Definition str := list ascii.

(** str.replace(c, by) for a single character *)
Definition replace_ch (c : ascii) (by_ : str) (s : str) : str :=
  flat_map (fun x => if Ascii.eqb x c then by_ else [x]) s.

Open Scope char_scope.
(** sv.py:53-71 *)
Definition glob_to_re (s : str) : str :=
  match s with
  | [] => []
  | c0 :: _ =>
      if Ascii.eqb c0 "/" && Ascii.eqb (last s " ") "/" then s
      else
        let r := replace_ch "." ["\"; "."] s in
        let r := replace_ch "*" ["."; "*"] r in
        let r := replace_ch "[" ["\"; "["] r in
        let r := replace_ch "]" ["\"; "]"] r in
        replace_ch "?" ["."] r
  end.

(** The fragment of Python regular expressions these translations use: a
    literal, any character, any sequence. [None] marks a pattern outside the
    fragment. Newlines (which "." does not match) are assumed not to occur in
    names. *)
Inductive item := Lit (c : ascii) | AnyChar | AnySeq.
Definition special (c : ascii) : bool :=
  existsb (Ascii.eqb c) ["*"; "+"; "?"; "("; ")"; "["; "]"; "{"; "}"; "^"; "$"; "|"; "\"; "."].
Fixpoint parse_re (r : str) : option (list item) :=
  match r with
  | [] => Some []
  | "\" :: c :: r => match parse_re r with Some l => Some (Lit c :: l) | None => None end
  | "." :: r =>
      match r with
      | "*" :: r' => match parse_re r' with Some l => Some (AnySeq :: l) | None => None end
      | _ => match parse_re r with Some l => Some (AnyChar :: l) | None => None end
      end
  | c :: r => if special c then None
              else match parse_re r with Some l => Some (Lit c :: l) | None => None end
  end.
Close Scope char_scope.

(** Does a prefix of the string match (regex matching from a position)? *)
Fixpoint match_here (l : list item) (s : str) : bool :=
  match l with
  | [] => true
  | Lit c :: l => match s with x :: s => Ascii.eqb x c && match_here l s | [] => false end
  | AnyChar :: l => match s with _ :: s => match_here l s | [] => false end
  | AnySeq :: l =>
      (fix any (s : str) : bool :=
         match_here l s || match s with _ :: s => any s | [] => false end) s
  end.
(** re.search: from any position *)
Fixpoint search (l : list item) (s : str) : bool :=
  match_here l s || match s with _ :: s => search l s | [] => false end.

(** uvm_globals.py:240-250 (and sv.py:46-50) *)
Definition uvm_is_match (expr s : str) : option bool :=
  match parse_re (glob_to_re expr) with Some l => Some (search l s) | None => None end.
