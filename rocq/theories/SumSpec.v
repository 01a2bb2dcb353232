(** Spec: what a history of reports and settings says about counts, key by key,
    without any table. *)
From Coq Require Import ZArith List Bool Arith String Ascii.
From Verif Require Import PoolModel SumModel.
Import ListNotations.
Open Scope Z_scope.

(** What a history has executed: messages with an exception in the formatting of
    their text are not executed. *)
Inductive fact := FMsg (sev : nat) (id : string) (counted : bool) | FSetSev (sev : nat) (n : Z) | FSetId (id : string) (n : Z)
  | FReset | FSetQuit (n : Z) | FSetMax (n : Z).
(** [v]: show_verbosity is on *)
Definition facts1 (v : bool) (o : op) : list fact :=
  match o with
  | Report sev id shown c => if v && shown then [] else [FMsg sev id c]
  | SetSev sev n => [FSetSev sev n]
  | SetId id n => [FSetId id n]
  | ResetSevs => [FReset]
  | SetQuit n => [FSetQuit n]
  | SetMax n => [FSetMax n]
  | Summary (Some (shown, c)) => if v && shown then [] else [FMsg 0 "UVM/REPORT/CATCHER"%string c]
  | _ => []
  end.
Definition verb_after (v : bool) (o : op) : bool := match o with ShowVerb b => b | _ => v end.
Fixpoint facts (v : bool) (ops : list op) : list fact :=
  match ops with [] => [] | o :: r => facts1 v o ++ facts (verb_after v o) r end.

Definition sev_num (s : nat) (fs : list fact) : Z :=
  fold_left (fun n f => match f with
    | FMsg s' _ _ => if Nat.eqb s s' then n + 1 else n
    | FSetSev s' m => if Nat.eqb s s' then Z.max 0 m else n
    | FReset => if Nat.ltb s 4 then 0 else n
    | _ => n end) fs 0.
Definition id_num (i : string) (fs : list fact) : Z :=
  fold_left (fun n f => match f with
    | FMsg _ i' _ => if String.eqb i i' then n + 1 else n
    | FSetId i' m => if String.eqb i i' then Z.max 0 m else n
    | _ => n end) fs 0.
(** maximum and quit count *)
Definition max_num (fs : list fact) : Z :=
  fold_left (fun n f => match f with FSetMax m => Z.max 0 m | _ => n end) fs 0.
Fixpoint quit_num (mx q : Z) (fs : list fact) : Z :=
  match fs with
  | [] => q
  | FMsg _ _ true :: r => quit_num mx (if mx =? 0 then q else q + 1) r
  | FSetQuit n :: r => quit_num mx (Z.max 0 n) r
  | FSetMax m :: r => quit_num (Z.max 0 m) q r
  | _ :: r => quit_num mx q r
  end.
Definition id_sum_after (ops : list op) : bool :=
  fold_left (fun b o => match o with IdSummary b' => b' | _ => b end) ops true.

(** The keys named by the history in order, with repetitions. *)
Definition sev_names (fs : list fact) : list nat :=
  [0; 1; 2; 3]%nat ++ flat_map (fun f => match f with FMsg s _ _ => [s] | FSetSev s _ => [s] | _ => [] end) fs.
Definition id_names (fs : list fact) : list string :=
  flat_map (fun f => match f with FMsg _ i _ => [i] | FSetId i _ => [i] | _ => [] end) fs.

(** [firsts l d]: [d] lists each element of [l] once, in the order of their first
    occurrences. *)
Inductive firsts {A} : list A -> list A -> Prop :=
| F_nil : firsts [] []
| F_new l d x : firsts l d -> ~ In x l -> firsts (l ++ [x]) (d ++ [x])
| F_old l d x : firsts l d -> In x l -> firsts (l ++ [x]) d.

(** everything the id set calls of an execution handed out, and the severity ones *)
Definition given_ids (o : list out) := flat_map (fun e => match e with OIdSet l => l | _ => [] end) o.
Definition given_sevs (o : list out) := flat_map (fun e => match e with OSevSet l => l | _ => [] end) o.
Definition not_print (o : op) : Prop := o <> Print.

(** ** text *)
Fixpoint has (c : ascii) (s : string) : Prop :=
  match s with EmptyString => False | String d r => d = c \/ has c r end.
(** A message whose parts keep apart: a known severity; no "@" or "(" in the file
    name, no ":" in the time, no space or "@" in the name, no space in the context, no "]" in the id. *)
Record separable (t : text) : Prop := Sep {
  sep_sev : (t_sev t < 4)%nat;
  sep_file : ~ has "@" (t_file t) /\ ~ has "(" (t_file t);
  sep_time : ~ has ":" (t_time t);
  sep_name : ~ has " " (t_name t) /\ ~ has "@" (t_name t);
  sep_ctx : ~ has " " (t_ctx t);
  sep_id : ~ has "]" (t_id t)
}.

(** What a summary ought to say after [fs]. *)
Definition tells (fs : list fact) (with_ids : bool) (l : list line) : Prop :=
  exists sv iv, firsts (sev_names fs) sv /\ firsts (id_names fs) iv /\
  l = [LTitle] ++
      (if max_num fs =? 0 then []
       else (if max_num fs <=? quit_num 0 0 fs then [LReached] else []) ++ [LQuit (quit_num 0 0 fs) (max_num fs)]) ++
      [LSevTitle] ++ map (fun s => LSev s (PVal (sev_num s fs))) sv ++
      (if with_ids then [LIdTitle] ++ map (fun i => LId i (PVal (id_num i fs))) iv else []).
(** the numbers of a summary added up *)
Definition sev_total (l : list line) : Z :=
  fold_right (fun x n => match x with LSev _ (PVal m) => m + n | _ => n end) 0 l.
Definition id_total (l : list line) : Z :=
  fold_right (fun x n => match x with LId _ (PVal m) => m + n | _ => n end) 0 l.
Definition messages (fs : list fact) : nat := List.length (filter (fun f => match f with FMsg _ _ _ => true | _ => false end) fs).
Definition no_set (f : fact) : Prop := match f with FSetSev _ _ | FSetId _ _ | FReset => False | _ => True end.
