(** Model of src/uvm/base/uvm_port_base.py: connect (328-421) with the check of levels
    (m_check_relationship, 557-618) and both directions of the connection, debug_connected_to
    (435-489), debug_provided_to (498-536).

    Ports, exports and imps are numbered and have different full names [nm]; so a dict keyed by
    full name is a list of ports without repetition, in insertion order. A null provider
    (383-386) is left out; the debug functions are called with level 0, the default. The phase
    end_of_elaboration_ph is imported by value before it is set, so it is always None (25, 474)
    and nothing is printed for an empty list of implementations. *)
From Coq Require Import ZArith List Bool Arith String Ascii.
From Verif Require Import Prelude PortModel.
Import ListNotations.
Local Open Scope string_scope.

Definition nl : string := String (ascii_of_nat 10) "".

Section Net.
Context (nm ty : nat -> string).                  (* get_full_name, get_type_name *)
Context (kd : nat -> kind) (mask : nat -> Z).
Context (owner : nat -> option nat) (par : nat -> option nat).   (* get_parent of a port, of a component *)
Context (dec : nat -> string).                    (* str *)

(** m_provided_by, m_provided_to *)
Record net := Net { by_ : nat -> list nat; to_ : nat -> list nat }.
Definition net0 : net := Net (fun _ => []) (fun _ => []).
(** d[name] = port *)
Definition dadd (l : list nat) (x : nat) : list nat := if existsb (Nat.eqb x) l then l else (l ++ [x])%list.

Definition gpar (o : option nat) : option nat := match o with Some c => par c | None => None end.
Definition oeq (a b : option nat) : bool :=
  match a, b with Some x, Some y => Nat.eqb x y | None, None => true | _, _ => false end.
(** 557-618: true if no warning is given *)
Definition related (p q : nat) : bool :=
  if String.eqb (ty p) "uvm_analysis_port" then true
  else match owner p, owner q with
       | Some op, Some oq =>
           match kd p, kd q with
           | KPort, KPort => oeq (par op) (Some oq)
           | KPort, _ => oeq (par op) (par oq)
           | KExport, KExport | KExport, KImp => oeq (Some op) (par oq)
           | _, _ => true
           end
       | _, _ => true
       end.
Inductive note := NErr (e : connerr) | NWarn.
(** 388-421 *)
Definition connect (s : net) (p q : nat) : net * list note :=
  match connect_error kd mask p q with
  | Some e => (s, [NErr e])
  | None => (Net (upd (by_ s) p (dadd (by_ s p) q)) (upd (to_ s) q (dadd (to_ s q) p)), if related p q then [] else [NWarn])
  end.
Definition nstep (s : net) (l : nat * nat) : net * list note := connect s (fst l) (snd l).
Definition wire (ls : list (nat * nat)) : net * list note := run_machine nstep net0 ls.

(** The recursion 448-463, 510-525 with the static variables save and indent. [stop]: the test
    of the level. None: the recursion does not end (RecursionError). *)
Definition row (indent : string) (c : nat) : string :=
  indent ++ "    | " ++ nl ++ indent ++ "    |_" ++ nm c ++ " (" ++ ty c ++ ")" ++ nl.
Fixpoint walk (fuel : nat) (stop : Z -> bool) (g : nat -> list nat) (level : Z) (p : nat) (st : string * string) : option (string * string) :=
  match fuel with
  | O => None
  | S k =>
      if stop level then Some st
      else
        let num := List.length (g p) in
        (fix go (curr : nat) (l : list nat) (st : string * string) : option (string * string) :=
           match l with
           | [] => Some st
           | c :: r =>
               let '(save, indent) := st in
               let save := save ++ row indent c in
               let indent := indent ++ (if Nat.ltb 1 num && negb (Nat.eqb curr num) then "    | " else "        ") in
               match walk k stop g (level + 1) c (save, indent) with
               | None => None
               | Some st => go (S curr) r st
               end
           end) 1 (g p) st
  end.
(** 482-487 *)
Fixpoint imp_rows (indent : string) (sz : nat) (imps : list nat) : string :=
  match imps with
  | [] => ""
  | q :: r => indent ++ dec sz ++ ": " ++ nm q ++ " (" ++ ty q ++ ")" ++ nl ++ imp_rows indent (S sz) r
  end.
(** 435-489. [imps]: m_imp_list. Some None: returns without a message. *)
Definition debug_connected_to (fuel : nat) (s : net) (imps : list nat) (p : nat) (max : Z) : option (option string) :=
  let stop := fun level => negb (max =? -1)%Z && (max <=? level)%Z in
  if stop 0%Z then Some None
  else match walk fuel stop (by_ s) 0 p ("", "    ") with
       | None => None
       | Some (save, indent) =>
           let save := if String.eqb save "" then save
                       else "This port's fanout network:" ++ nl ++ nl ++ "    " ++ nm p ++ " (" ++ ty p ++ ")" ++ nl ++ save ++ nl in
           Some (Some (save ++ match imps with
                               | [] => ""
                               | _ => "    Resolved implementation list:" ++ nl ++ imp_rows indent 0 imps
                               end))
       end.
(** 498-536 *)
Definition debug_provided_to (fuel : nat) (s : net) (p : nat) (max : Z) : option (option string) :=
  let stop := fun level => negb (max =? -1)%Z && (max <? level)%Z in
  if stop 0%Z then Some None
  else match walk fuel stop (to_ s) 0 p ("", "    ") with
       | None => None
       | Some (save, indent) =>
           let save := if String.eqb save "" then save
                       else "This port's fanin network:" ++ nl ++ nl ++ "    " ++ nm p ++ " (" ++ ty p ++ ")" ++ nl ++ save ++ nl in
           Some (Some (save ++ match to_ s p with [] => indent ++ "This port has not been bound" ++ nl | _ => "" end))
       end.
(** 541-552 *)
Definition get_connected_to (s : net) (p : nat) : list nat := by_ s p.
Definition get_provided_to (s : net) (p : nat) : list nat := to_ s p.
End Net.
