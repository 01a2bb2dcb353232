(** The names of the actions and the words of a text. *)
From Coq Require Import ZArith List Bool String Ascii.
Import ListNotations.
Open Scope Z_scope.

(** The names, in the order of the text, with the number of their bit. *)
Definition names : list (string * Z) :=
  [("DISPLAY", 0); ("LOG", 1); ("RM_RECORD", 6); ("COUNT", 2); ("CALL_HOOK", 4); ("EXIT", 3); ("STOP", 5)]%string.
Definition names_of (a : Z) : list string := map fst (filter (fun p => Z.testbit a (snd p)) names).

(** [s] is the words joined with bars, and no word has one. *)
Fixpoint no_bar (s : string) : Prop :=
  match s with EmptyString => True | String c s => c <> "|"%char /\ no_bar s end.
Definition words (s : string) (ws : list string) : Prop :=
  ws <> [] /\ Forall no_bar ws /\ String.concat "|" ws = s.
