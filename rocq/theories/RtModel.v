(** run_test(): base/uvm_root.py 221-367, with the part of uvm_component.py (222-265) that
    decides whether the test can be made. Several calls may be under way; each is numbered and
    goes on, when resumed, to its next await. *)
From Coq Require Import List String Arith Bool.
From Verif Require Import Prelude CmdModel.
Import ListNotations.
Local Open Scope nat_scope.
Local Open Scope string_scope.
Local Open Scope list_scope.

Definition top : string := "uvm_test_top".
(** The fatal messages; INVTST says whether the name came from the command line (294-297). *)
Inductive fatal := TTINST | ILLCRT | CLDEXT | INVTST (plusarg : bool) | NOCOMP.
(** 360-367 *)
Inductive msg := Plain | Named (n : string) | Override (t n : string).
Inductive what :=
| Multi (n : nat) (chosen : string) (all : list string)    (* 270-278 *)
| Fatal (f : fatal)
| Made (t : string) (attached : bool)    (* a test of type [t]; is it a child of the root? *)
| Running (m : msg)
| Phases    (* 316 *)
| Summary    (* 329-330 *)
| Raised.    (* AttributeError *)

(** where a call of run_test waits: at 254, 287, 299, 320, 324 *)
Inductive place :=
| Idle | AwInit | AwCreate (name : string) (plusarg : bool) | AwCheck (name : string) (test : option string)
| AwStarted | AwPhases | Ended.
Record state := St { kids : list string; built : bool; all_done : bool; pc : nat -> place }.
Definition state0 : state := St [] false false (fun _ => Idle).

Section RunTest.
(** [argv]: the command line. [make n]: the type name of what the factory makes for the
    requested name (FactoryModel), None if it makes nothing. [args i]: the argument of call
    [i]. [dies]: whether a fatal message raises (340-358; not if raise_exception_on_die was
    cleared, or the message was caught or its action changed). *)
Context (argv : list string) (make : string -> option string) (args : nat -> string) (dies : bool).

(** 258-278 *)
Definition choose (arg : string) : string * bool * list what :=
  let names := get_arg_values argv "+UVM_TESTNAME=" in
  let name := match names with n :: _ => n | [] => arg end in
  (name, Nat.ltb 0 (List.length names), if Nat.ltb 1 (List.length names) then [Multi (List.length names) name names] else []).

Definition at_ (s : state) (i : nat) (p : place) : state := St (kids s) (built s) (all_done s) (upd (pc s) i p).
Definition has (n : string) (s : state) : bool := if in_dec string_dec n (kids s) then true else false.
Definition says (i : nat) (l : list what) : list (nat * what) := map (pair i) l.

(** 360-367 *)
Definition running_test_msg (name : string) (t : string) : msg :=
  if String.eqb name t then Named name else Override t name.

Definition resume (s : state) (i : nat) : state * list (nat * what) :=
  match pc s i with
  | AwInit =>    (* 258-287 *)
      let '(name, plusarg, ms) := choose (args i) in
      if String.eqb name "" then (at_ s i (AwCheck "" None), says i ms)
      else if has top s then (at_ s i (if dies then Ended else AwCreate name plusarg), says i (ms ++ [Fatal TTINST]))
      else (at_ s i (AwCreate name plusarg), says i ms)
  | AwCreate name plusarg =>    (* 290-299; uvm_component.py 226-265 *)
      match make name with
      | None => (at_ s i (if dies then Ended else AwCheck name None), says i [Fatal (INVTST plusarg)])
      | Some t =>
          let late := if built s then [Fatal ILLCRT] else [] in
          if built s && dies then (at_ s i Ended, says i late)
          else if has top s then
            if dies then (at_ s i Ended, says i (late ++ [Fatal CLDEXT]))
            else (at_ s i (AwCheck name (Some t)), says i (late ++ [Fatal CLDEXT; Made t false]))
          else
            (St (kids s ++ [top]) (built s) (all_done s) (upd (pc s) i (AwCheck name (Some t))), says i (late ++ [Made t true]))
      end
  | AwCheck name test =>    (* 301-316 *)
      match kids s with
      | [] => (at_ s i Ended, says i [Fatal NOCOMP])
      | _ =>
          if String.eqb name "" then (at_ s i AwStarted, says i [Running Plain; Phases])
          else match test with
               | Some t => (at_ s i AwStarted, says i [Running (running_test_msg name t); Phases])
               | None => (at_ s i Ended, says i [Raised])
               end
      end
  | AwStarted => (at_ s i AwPhases, [])    (* 320 *)
  | AwPhases => if all_done s then (at_ s i Ended, says i [Summary]) else (s, [])    (* 324-333; the event stays set *)
  | _ => (s, [])
  end.

Inductive label :=
| Call (i : nat)    (* run_test(args i) *)
| Resume (i : nat)
| NewTop (n : string)    (* another component is made below the root *)
| BuildDone
| AllDone.

Definition step (s : state) (l : label) : state * list (nat * what) :=
  match l with
  | Call i => match pc s i with Idle => (at_ s i AwInit, []) | _ => (s, []) end
  | Resume i => resume s i
  | NewTop n => if (built s && dies) || has n s then (s, []) else (St (kids s ++ [n]) (built s) (all_done s) (pc s), [])
  | BuildDone => (St (kids s) true (all_done s) (pc s), [])
  | AllDone => (St (kids s) (built s) true (pc s), [])
  end.
Definition run (ls : list label) : state * list (nat * what) := run_machine step state0 ls.
End RunTest.
