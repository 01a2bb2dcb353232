(** What is asked about networks of ports. *)
From Coq Require Import ZArith List Bool Arith String.
From Verif Require Import Prelude PortModel.
Import ListNotations.

(** [leads g p a q]: from [p], taking each time the connection numbered by [a], one gets to [q]. *)
Inductive leads (g : nat -> list nat) : nat -> list nat -> nat -> Prop :=
| l_here p : leads g p [] p
| l_step p i c a q : nth_error (g p) i = Some c -> leads g c a q -> leads g p (i :: a) q.
(** Depth first: a path before its continuations, and those before the later branches. *)
Inductive before : list nat -> list nat -> Prop :=
| b_prefix i l : before [] (i :: l)
| b_less i j a b : i < j -> before (i :: a) (j :: b)
| b_same i a b : before a b -> before (i :: a) (i :: b).
(** All paths from [p], of a length that is allowed, each once and in this order. *)
Inductive ascending : list (list nat) -> Prop :=
| as_nil : ascending []
| as_cons a l : Forall (before a) l -> ascending l -> ascending (a :: l).
Definition listing (g : nat -> list nat) (p : nat) (allowed : nat -> Prop) (l : list (list nat)) : Prop :=
  ascending l /\ forall a, In a l <-> a <> [] /\ allowed (List.length a) /\ exists q, leads g p a q.
(** The last step of the path is not the last connection of the port it starts from. *)
Definition more_follow (g : nat -> list nat) (p : nat) (a : list nat) : Prop :=
  exists b i p', a = b ++ [i] /\ leads g p b p' /\ S i < List.length (g p').

Local Open Scope string_scope.
Section Rows.
Context (line : string -> nat -> string) (g : nat -> list nat) (p : nat).
(** The text of the paths [l], starting with indentation [i] and ending with [i']: the
    indentation grows with every line, by a bar if more connections follow. *)
Inductive text : string -> list (list nat) -> string -> string -> Prop :=
| t_nil i : text i [] "" i
| t_bar i a q l t i' : leads g p a q -> more_follow g p a -> text (i ++ "    | ") l t i' -> text i (a :: l) (line i q ++ t) i'
| t_gap i a q l t i' : leads g p a q -> ~ more_follow g p a -> text (i ++ "        ") l t i' -> text i (a :: l) (line i q ++ t) i'.
End Rows.

Definition newline : string := String (Ascii.ascii_of_nat 10) "".
Section Texts.
Context (nm ty : nat -> string).
Definition named (q : nat) : string := nm q ++ " (" ++ ty q ++ ")" ++ newline.
Definition line (i : string) (q : nat) : string := i ++ "    | " ++ newline ++ i ++ "    |_" ++ named q.
(** The heading of the paths [l] from [p], and what stands below it. *)
Definition under (title : string) (p : nat) (l : list (list nat)) (rows : string) : string :=
  match l with [] => "" | _ => title ++ newline ++ newline ++ "    " ++ named p ++ rows ++ newline end.
Definition numbered (dec : nat -> string) (i : string) (n : nat) (q : nat) : string := i ++ dec n ++ ": " ++ named q.
End Texts.

(** Which connections are possible, and at which levels they belong. *)
Section Rules.
Context (kd : nat -> kind) (mask : nat -> Z) (owner par : nat -> option nat).
Definition fits (p q : nat) : Prop :=
  p <> q /\ (forall n, Z.testbit (mask p) n = true -> Z.testbit (mask q) n = true) /\ kd p <> KImp /\ ~ (kd p = KExport /\ kd q = KPort).
Definition at_levels (p q : nat) : Prop :=
  forall c d, owner p = Some c -> owner q = Some d ->
    (kd p = KPort -> kd q = KPort -> par c = Some d) /\
    (kd p = KPort -> kd q <> KPort -> par c = par d) /\
    (kd p = KExport -> kd q <> KPort -> par d = Some c).
End Rules.
(** Each entry at its first place only. *)
Fixpoint keep_first (l : list nat) : list nat :=
  match l with [] => [] | x :: r => x :: filter (fun y => negb (Nat.eqb x y)) (keep_first r) end.
