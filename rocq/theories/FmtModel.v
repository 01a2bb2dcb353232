(** Model of the texts of report actions.

    - base/uvm_report_handler.py: format_action 328-356;
    - base/uvm_globals.py: uvm_string_to_action 213-233 (its second argument is not used);
    - base/uvm_object_globals.py: the actions 244-251.

    An action is any Python int, here Z; [str.split] is [split]. *)
From Coq Require Import ZArith List Bool String Ascii.
Import ListNotations.
Open Scope Z_scope.

(** 244-251 *)
Definition NO_ACTION := 0. Definition DISPLAY := 1. Definition LOG := 2. Definition COUNT := 4.
Definition EXIT := 8. Definition CALL_HOOK := 16. Definition STOP := 32. Definition RM_RECORD := 64.

(** The truth of [action & m] *)
Definition on (a m : Z) : bool := negb (Z.land a m =? 0).

(** 328-356 *)
Definition format_action (a : Z) : string :=
  if a =? NO_ACTION then "UVM_NO_ACTION"%string
  else
    let s := EmptyString in
    let s := if on a DISPLAY then (s ++ "DISPLAY ")%string else s in
    let s := if on a LOG then (s ++ "LOG ")%string else s in
    let s := if on a RM_RECORD then (s ++ "RM_RECORD ")%string else s in
    let s := if on a COUNT then (s ++ "COUNT ")%string else s in
    let s := if on a CALL_HOOK then (s ++ "CALL_HOOK ")%string else s in
    let s := if on a EXIT then (s ++ "EXIT ")%string else s in
    let s := if on a STOP then (s ++ "STOP ")%string else s in
    s.

(** text.split(c) *)
Fixpoint split (c : ascii) (s : string) : list string :=
  match s with
  | EmptyString => [EmptyString]
  | String x s' =>
      match split c s' with
      | [] => [String x EmptyString]
      | w :: ws => if Ascii.eqb x c then EmptyString :: w :: ws else String x w :: ws
      end
  end.

(** 216-232, one turn of the loop *)
Definition read1 (a : Z) (w : string) : Z :=
  let a := if String.eqb w "UVM_NO_ACTION" then Z.lor a NO_ACTION else a in
  let a := if String.eqb w "UVM_DISPLAY" then Z.lor a DISPLAY else a in
  let a := if String.eqb w "UVM_LOG" then Z.lor a LOG else a in
  let a := if String.eqb w "UVM_COUNT" then Z.lor a COUNT else a in
  let a := if String.eqb w "UVM_EXIT" then Z.lor a EXIT else a in
  let a := if String.eqb w "UVM_CALL_HOOK" then Z.lor a CALL_HOOK else a in
  let a := if String.eqb w "UVM_STOP" then Z.lor a STOP else a in
  let a := if String.eqb w "UVM_RM_RECORD" then Z.lor a RM_RECORD else a in
  a.
(** 213-233 *)
Definition string_to_action (s : string) : Z := fold_left read1 (split "|" s) 0.
