(** What a call of run_test() may do: its stories. *)
From Coq Require Import List String Arith Bool.
From Verif Require Import CmdSpec RtModel.
Import ListNotations.
Local Open Scope string_scope.
Local Open Scope list_scope.

(** the names given as +UVM_TESTNAME=name, in order *)
Definition Names (argv vs : list string) : Prop := Selects (ValueOf "+UVM_TESTNAME=") argv vs.
(** the test that is wanted: the first of them, else the argument *)
Definition wanted (vs : list string) (arg : string) : string := hd arg vs.
(** the warning, if there are several *)
Definition warning (vs : list string) (arg : string) : list what :=
  match vs with _ :: _ :: _ => [Multi (List.length vs) (wanted vs arg) vs] | _ => [] end.
Definition given (vs : list string) : bool := match vs with [] => false | _ => true end.
(** the message that names the test *)
Definition announce (w t : string) : msg := if string_dec t w then Named w else Override t w.

Inductive Story (make : string -> option string) (vs : list string) (w : string) : list what -> Prop :=
| S_again : w <> "" -> Story make vs w [Fatal TTINST]
| S_unknown : w <> "" -> make w = None -> Story make vs w [Fatal (INVTST (given vs))]
| S_late t : w <> "" -> make w = Some t -> Story make vs w [Fatal ILLCRT]
| S_clash t : w <> "" -> make w = Some t -> Story make vs w [Fatal CLDEXT]
| S_test t : w <> "" -> make w = Some t -> Story make vs w [Made t true; Running (announce w t); Phases; Summary]
| S_none : w = "" -> Story make vs w [Fatal NOCOMP]
| S_plain : w = "" -> Story make vs w [Running Plain; Phases; Summary].

Definition mine (i : nat) (os : list (nat * what)) : list what := map snd (filter (fun o => Nat.eqb (fst o) i) os).
Definition made (o : nat * what) : bool := match snd o with Made _ true => true | _ => false end.
