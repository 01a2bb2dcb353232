(** The audit trail of resources: base/uvm_resource.py 156-198, 241-255, 480-572, 602-615,
    787-825, 1102-1127, 1317-1326, 1640-1686. Resources are numbered; values are None or
    integers. The flag of wait_modified is in WtModel. Times are left out (the code never sets those of the access records). What a
    lookup finds (lookup_name and get_highest_precedence, modelled in ResourceModel) is given
    with the operation. *)
From Coq Require Import List String ZArith Bool.
From Verif Require Import Prelude.
Import ListNotations.
Local Open Scope nat_scope.
Local Open Scope string_scope.

(** 156-161 *)
Record access_t := Access { read_count : nat; write_count : nat }.
(** 241-255, 630; [access] is the dictionary in its order. *)
Record resource := Res { val : option Z; read_only : bool; access : list (string * access_t) }.
Definition new_resource : resource := Res None false [].
(** 1102-1127: one attempt to get *)
Record get_t := Get_t { g_name : string; g_scope : string; g_rsrc : option nat }.
Record state := St { auditing : bool; rsc : nat -> resource; get_record : list get_t }.
Definition state0 : state := St true (fun _ => new_resource) [].    (* 186 *)

Definition val_eqb (a b : option Z) : bool :=
  match a, b with None, None => true | Some x, Some y => Z.eqb x y | _, _ => false end.

(** self.access.get(key) and self.access[key] = a *)
Fixpoint look (k : string) (l : list (string * access_t)) : option access_t :=
  match l with [] => None | (k', a) :: r => if String.eqb k k' then Some a else look k r end.
Fixpoint store (k : string) (a : access_t) (l : list (string * access_t)) : list (string * access_t) :=
  match l with [] => [(k, a)] | (k', b) :: r => if String.eqb k k' then (k', a) :: r else (k', b) :: store k a r end.

(** 539-543, 565-569: the record there is, or a new one (602-615) *)
Definition record_for (k : string) (l : list (string * access_t)) : access_t :=
  match look k l with Some a => a | None => Access 0 0 end.

(** 480-548 *)
Definition record_read_access (on : bool) (r : resource) (accessor : option string) : resource :=
  if on then
    let k := match accessor with Some n => n | None => "<empty>" end in
    let a := record_for k (access r) in
    Res (val r) (read_only r) (store k (Access (S (read_count a)) (write_count a)) (access r))
  else r.

(** 550-572 *)
Definition record_write_access (on : bool) (r : resource) (accessor : option string) : resource :=
  if on then
    match accessor with
    | Some k =>
        let a := record_for k (access r) in
        Res (val r) (read_only r) (store k (Access (read_count a) (S (write_count a))) (access r))
    | None => r
    end
  else r.

Inductive out := Value (v : option Z) | ErrReadOnly | Found (o : option nat).
(** accessors are given by their full names *)
Inductive op :=
| Read (r : nat) (accessor : option string)
| Write (r : nat) (v : option Z) (accessor : option string)
| SetReadOnly (r : nat)
| SetReadWrite (r : nat)
| Auditing (on : bool)
| GetByName (scope name : string) (found : option nat).

(** 792-825 *)
Definition write (on : bool) (r : resource) (v : option Z) (accessor : option string) : resource * list out :=
  if read_only r then (r, [ErrReadOnly])
  else if val_eqb (val r) v then (r, [])
  else let r := record_write_access on r accessor in (Res v (read_only r) (access r), []).

Definition with_rsc (s : state) (i : nat) (r : resource) : state := St (auditing s) (upd (rsc s) i r) (get_record s).

Definition step (s : state) (o : op) : state * list out :=
  match o with
  | Read i acc => let r := record_read_access (auditing s) (rsc s i) acc in (with_rsc s i r, [Value (val r)])    (* 787-790 *)
  | Write i v acc => let '(r, os) := write (auditing s) (rsc s i) v acc in (with_rsc s i r, os)
  | SetReadOnly i => let r := rsc s i in (with_rsc s i (Res (val r) true (access r)), [])    (* 272-273 *)
  | SetReadWrite i => let r := rsc s i in (with_rsc s i (Res (val r) false (access r)), [])    (* 276-277 *)
  | Auditing on => (St on (rsc s) (get_record s), [])    (* 189-194 *)
  | GetByName scope name found =>    (* 1317-1326 *)
      (St (auditing s) (rsc s) (if auditing s then (get_record s ++ [Get_t name scope found])%list else get_record s), [Found found])
  end.
Definition run (ls : list op) : state * list out := run_machine step state0 ls.

(** 1640-1686: dump() of the queues of the pool. print_accessors() is commented out in the
    code, so that calling it raises. *)
Inductive dumped := DHead | DNone | DPrint (r : nat) | DEnd | DRaise.
Fixpoint print_resources (rq : list nat) (audit : bool) : list dumped * bool :=
  match rq with
  | [] => ([], true)
  | r :: rest => if audit then ([DPrint r; DRaise], false)
                 else let '(o, ok) := print_resources rest audit in (DPrint r :: o, ok)
  end.
Fixpoint dump_queues (qs : list (list nat)) (audit : bool) : list dumped :=
  match qs with
  | [] => [DEnd]
  | rq :: rest =>
      match rq with
      | [] => DNone :: dump_queues rest audit
      | _ => let '(o, ok) := print_resources rq audit in
             if ok then (o ++ dump_queues rest audit)%list else o
      end
  end.
Definition dump (qs : list (list nat)) (audit : bool) : list dumped := DHead :: dump_queues qs audit.
