(** Model of the command line: src/uvm/base/uvm_cmdline_processor.py; what uvm_root.py (370-391,
    553-591, 644-775) and uvm_component.py (2332-2562, 2571-2599) make of its arguments.

    Regular expressions, integers in Python syntax and glob matching of component names are
    parameters. Left out: messages, and the verbosity of the root (780-851). *)
From Coq Require Import List Bool Arith ZArith String Ascii.
From Verif Require Import Prelude.
Import ListNotations.
Local Open Scope string_scope.
Local Open Scope list_scope.

(** ** Arguments, uvm_cmdline_processor.py *)
(** s[k:] *)
Fixpoint drop (k : nat) (s : string) : string :=
  match k, s with O, _ => s | S k, String _ s => drop k s | S _, EmptyString => EmptyString end.
Definition starts (m a : string) : bool := String.prefix m a.                  (* 384-386, 410-413, 459-461 *)
Definition get_arg_values (argv : list string) (m : string) : list string :=   (* 449-466 *)
  flat_map (fun a => if starts m a then [drop (String.length m) a] else []) argv.
Definition get_arg_value (argv : list string) (m : string) : nat * list string := (* 406-417 *)
  fold_left (fun '(n, v) a => if starts m a then (S n, if Nat.eqb n 0 then v ++ [drop (String.length m) a] else v) else (n, v)) argv (0, []).
(** 370-388; [re]: a compiled regular expression, None if it does not compile *)
Section Regex.
Context (re : string -> option (string -> bool)).
Definition is_regex (m : string) : bool :=
  (2 <? String.length m)%nat && String.eqb (substring 0 1 m) "/" && String.eqb (substring (String.length m - 1)%nat 1 m) "/".
Definition get_arg_matches (argv : list string) (m : string) : list string :=
  if is_regex m then
    match re (substring 1 (String.length m - 3) m) with
    | None => []
    | Some f => filter f argv
    end
  else filter (starts m) argv.
End Regex.
Definition upper (c : ascii) : ascii :=
  let n := nat_of_ascii c in if (97 <=? n)%nat && (n <=? 122)%nat then ascii_of_nat (n - 32) else c.
Fixpoint uppers (s : string) : string := match s with EmptyString => EmptyString | String c s => String (upper c) (uppers s) end.
(** 515-535: m_argv, m_plus_argv, m_uvm_argv *)
Definition extract_args (argv : list string) : list string * list string * list string :=
  let args := filter (fun a => negb (String.eqb a "")) argv in
  (args,
   flat_map (fun a => if starts "+" a then [substring 0 1 a] else []) args,
   filter (fun a => String.eqb (uppers (substring 1 3 a)) "UVM") args).

(** ** str.split with a one-character separator *)
Fixpoint split (c : ascii) (s : string) : list string :=
  match s with
  | EmptyString => [""]
  | String x s =>
      if Ascii.eqb x c then "" :: split c s
      else match split c s with f :: fs => String x f :: fs | [] => [String x ""] end
  end.
Definition comma : ascii := ",".
Definition bar : ascii := "|".

(** ** +uvm_set_action and +uvm_set_severity *)
Local Open Scope Z_scope.
Definition sev_code (s : string) : Z :=                                        (* uvm_globals.py 201-210 *)
  if String.eqb s "UVM_INFO" then 0 else if String.eqb s "UVM_WARNING" then 1
  else if String.eqb s "UVM_ERROR" then 2 else if String.eqb s "UVM_FATAL" then 3 else -1.
Definition one_action (s : string) : Z :=                                      (* 216-232 *)
  if String.eqb s "UVM_DISPLAY" then 1 else if String.eqb s "UVM_LOG" then 2 else if String.eqb s "UVM_COUNT" then 4
  else if String.eqb s "UVM_EXIT" then 8 else if String.eqb s "UVM_CALL_HOOK" then 16 else if String.eqb s "UVM_STOP" then 32
  else if String.eqb s "UVM_RM_RECORD" then 64 else 0.
Definition action_code (s : string) : Z :=                                     (* 213-233 *)
  fold_left (fun a x => Z.lor a (one_action x)) (split bar s) 0.

Definition fld (i : nat) (l : list string) : string := nth i l "".
(** The settings kept, 2441-2459. [None]: an IndexError. The number of fields is only warned
    about. *)
Fixpoint parse_actions (values : list string) : option (list (list string)) :=
  match values with
  | [] => Some []
  | v :: vs =>
      let args := split comma v in
      if (List.length args <=? 2)%nat then None
      else if negb (String.eqb (fld 2 args) "_ALL_") && (sev_code (fld 2 args) =? 0) then parse_actions vs
      else if (List.length args <=? 3)%nat then None
      else if action_code (fld 3 args) =? 0 then parse_actions vs
      else match parse_actions vs with Some l => Some (args :: l) | None => None end
  end.
(** What a component is told. *)
Inductive told :=
| SevAction (sev a : Z) | IdAction (id : string) (a : Z) | SevIdAction (sev : Z) (id : string) (a : Z)
| SevOver (sev new : Z) | SevIdOver (sev : Z) (id : string) (new : Z)
| Verb (v : Z) | IdVerb (id : string) (v : Z).
Section Apply.
(** [is_match]: uvm_is_match *)
Context (is_match : string -> string -> bool).
Definition apply_action (name : string) (args : list string) : list told :=    (* 2464-2486 *)
  if negb (is_match (fld 0 args) name) then []
  else
    let sev := sev_code (fld 2 args) in
    let a := action_code (fld 3 args) in
    if String.eqb (fld 1 args) "_ALL_" then
      if String.eqb (fld 2 args) "_ALL_" then [SevAction 0 a; SevAction 1 a; SevAction 2 a; SevAction 3 a] else [SevAction sev a]
    else if String.eqb (fld 2 args) "_ALL_" then [IdAction (fld 1 args) a]
    else [SevIdAction sev (fld 1 args) a].
(** 2438-2486; [cache]: m_uvm_applied_cl_action once it is initialised *)
Definition set_cl_action (values : list string) (cache : option (list (list string))) (name : string)
  : option (list (list string)) * option (list told) :=
  match (match cache with Some l => Some l | None => parse_actions values end) with
  | None => (None, None)
  | Some l => (Some l, Some (flat_map (apply_action name) l))
  end.
(** 2505-2527 *)
Fixpoint parse_sevs (values : list string) : list (list string) :=
  match values with
  | [] => []
  | v :: vs =>
      let args := split comma v in
      if negb (List.length args =? 4)%nat then parse_sevs vs
      else if negb (String.eqb (fld 2 args) "_ALL_") && (sev_code (fld 2 args) =? 0) then parse_sevs vs
      else if sev_code (fld 3 args) =? -1 then parse_sevs vs
      else args :: parse_sevs vs
  end.
Definition apply_sev (name : string) (args : list string) : list told :=       (* 2531-2552 *)
  if negb (is_match (fld 0 args) name) then []
  else
    let o := sev_code (fld 2 args) in
    let n := sev_code (fld 3 args) in
    if String.eqb (fld 1 args) "_ALL_" then
      if String.eqb (fld 2 args) "_ALL_" then [SevOver 0 n; SevOver 1 n; SevOver 2 n; SevOver 3 n] else [SevOver o n]
    else if String.eqb (fld 2 args) "_ALL_" then
      [SevIdOver 0 (fld 1 args) n; SevIdOver 1 (fld 1 args) n; SevIdOver 2 (fld 1 args) n; SevIdOver 3 (fld 1 args) n]
    else [SevIdOver o (fld 1 args) n].
Definition set_cl_sev (values : list string) (name : string) : list told := flat_map (apply_sev name) (parse_sevs values).

(** ** +uvm_set_verbosity *)
Context (to_int : string -> option Z).
Definition convert_verb (s : string) : Z :=                                    (* 538-572 *)
  if String.eqb s "NONE" || String.eqb s "UVM_NONE" then 0 else if String.eqb s "LOW" || String.eqb s "UVM_LOW" then 100
  else if String.eqb s "MEDIUM" || String.eqb s "UVM_MEDIUM" then 200 else if String.eqb s "HIGH" || String.eqb s "UVM_HIGH" then 300
  else if String.eqb s "FULL" || String.eqb s "UVM_FULL" then 400 else if String.eqb s "DEBUG" || String.eqb s "UVM_DEBUG" then 500 else -1.
Record setting := Setting { v_comp : string; v_id : string; v_verb : Z; v_phase : string; v_off : Z }.
(** What m_set_cl_verb() does to the component, what it keeps for later phases
    (m_verbosity_settings), and what it adds to m_time_settings *)
Record vout := VOut { now : list told; later : list setting; timed : list setting }.
Definition vnone : vout := VOut [] [] [].
Definition tell (s : setting) : told := if String.eqb (v_id s) "_ALL_" then Verb (v_verb s) else IdVerb (v_id s) (v_verb s).
(** 2375-2395 *)
Definition apply_verb (top : bool) (name : string) (s : setting) (o : vout) : vout :=
  let timed' := if String.eqb (v_phase s) "time" && top then timed o ++ [s] else timed o in
  if is_match (v_comp s) name then
    if (String.eqb (v_phase s) "" || String.eqb (v_phase s) "build" || String.eqb (v_phase s) "time") && (v_off s =? 0)
    then VOut (now o ++ [tell s]) (later o) timed'
    else VOut (now o) (if String.eqb (v_phase s) "time" then later o else later o ++ [s]) timed'
  else VOut (now o) (later o) timed'.
Definition remove_at {A} (i : nat) (l : list A) : list A := firstn i l ++ skipn (S i) l.
(** 2364-2395. Deleting makes the loop miss the value after and run over the end. [None]: an
    exception. *)
Fixpoint verb_loop (first top : bool) (name : string) (todo i : nat) (values : list string) (o : vout) : option vout :=
  match todo with
  | O => Some o
  | S todo =>
      match nth_error values i with
      | None => None
      | Some v =>
          let args := split comma v in
          if (List.length args <=? 2)%nat then None
          else
            let verb := convert_verb (fld 2 args) in
            if first && (negb ((List.length args =? 4) || (List.length args =? 5))%nat || (verb =? -1))
            then verb_loop first top name todo (S i) (remove_at i values) o
            else if (List.length args =? 3)%nat then None
            else
              match (if (List.length args =? 5)%nat then to_int (fld 4 args) else Some 0) with
              | None => None
              | Some off => verb_loop first top name todo (S i) values
                              (apply_verb top name (Setting (fld 0 args) (fld 1 args) verb (fld 3 args) off) o)
              end
      end
  end.
Definition set_cl_verb (first top : bool) (name : string) (values : list string) : option vout :=
  verb_loop first top name (List.length values) 0 values vnone.
(** 2571-2599: the loop variable is a setting and is used as an index. [None]: the TypeError *)
Definition apply_later (l : list setting) : option (list told) := match l with [] => Some [] | _ => None end.

(** 2402-2425: the times after the start at which the settings are applied *)
Fixpoint insert (s : setting) (l : list setting) : list setting :=
  match l with [] => [s] | x :: l => if v_off s <? v_off x then s :: x :: l else x :: insert s l end.
Definition sorted (l : list setting) : list setting := fold_left (fun acc s => insert s acc) l [].
Fixpoint fork (last : Z) (l : list setting) : list (Z * setting) :=
  match l with [] => [] | s :: l => (v_off s - last, s) :: fork (v_off s) l end.
Definition fork_time_settings (l : list setting) : list (Z * setting) := fork 0 (sorted l).
End Apply.

(** ** +uvm_set_config_int and +uvm_set_config_string, uvm_root.py 644-658, 719-775 *)
Inductive cval := CInt (z : Z) | CStr (s : string).
Inductive effect := SetCfg (path field : string) (v : cval) | Complain.
Section Config.
(** [num b s]: int(s, b); b = 10 also for int(s) *)
Context (num : Z -> string -> option Z).
(** 751-767; None: a ValueError *)
Definition int_value (s : string) : option Z :=
  if (2 <? String.length s)%nat then
    let base := substring 0 2 s in
    let ext := drop 2 s in
    if String.eqb base "'b" || String.eqb base "0b" then num 2 ext
    else if String.eqb base "'o" then num 8 ext
    else if String.eqb base "'d" then num 10 ext
    else if String.eqb base "'h" || String.eqb base "'x" || String.eqb base "0x" then num 16 ext
    else num 10 s
  else num 10 s.
Definition process_config (is_int : bool) (cfg : string) : option effect :=
  match split comma cfg with
  | [p; f; v] => if is_int then match int_value v with Some z => Some (SetCfg p f (CInt z)) | None => None end
                 else Some (SetCfg p f (CStr v))
  | _ => Some Complain
  end.
(** the effects until an exception, and whether there was none *)
Fixpoint process_all (is_int : bool) (l : list string) : list effect * bool :=
  match l with
  | [] => ([], true)
  | c :: l => match process_config is_int c with
              | None => ([], false)
              | Some e => let (es, ok) := process_all is_int l in (e :: es, ok)
              end
  end.
(** The patterns lose their last character, the equals sign (374). *)
Definition cfg_ints (argv : list string) : list string :=
  map (drop 20) (filter (fun a => starts "+UVM_SET_CONFIG_INT" a || starts "+uvm_set_config_int" a) argv).
Definition cfg_strings (argv : list string) : list string :=
  map (drop 23) (filter (fun a => starts "+UVM_SET_CONFIG_STRING" a || starts "+uvm_set_config_string" a) argv).
Definition do_config_settings (argv : list string) : list effect * bool :=
  let (e1, ok) := process_all true (cfg_ints argv) in
  if ok then let (e2, ok2) := process_all false (cfg_strings argv) in (e1 ++ e2, ok2) else (e1, false).
End Config.

(** ** Time-out, uvm_root.py 369-391, 553-591 *)
(** The value is a number or, from the command line, a string. *)
Inductive tval := TNum (z : Z) | TStr (s : string).
Record tst := TSt { t_val : tval; t_over : bool }.
Definition set_timeout (s : tst) (v : tval) (over : bool) : tst := if t_over s then TSt v over else s.
(** [scan]: what sscanf(arg, "%d,%s") found; the two are taken in the wrong order (584) *)
Definition do_timeout (scan : string -> list tval) (values : list string) (s : tst) : tst :=
  match values with
  | [] => s
  | v :: _ =>
      match scan v with
      | [a; b] => match a with
                  | TStr "YES" => set_timeout s b true
                  | TStr "NO" => set_timeout s b false
                  | _ => set_timeout s b true
                  end
      | _ => set_timeout s (TNum 0) true
      end
  end.
(** ** Quit count: uvm_report_server.py 193-203, uvm_root.py 666-701. The flag is compared with
    False (194): 0 from the command line is not False. *)
Inductive flag := FTrue | FFalse | FOne | FZero.
Record qst := QSt { q_max : Z; q_over : flag }.
Definition set_max_quit_count (s : qst) (n : Z) (over : flag) : qst :=
  match q_over s with FFalse => s | _ => QSt (if n <? 0 then 0 else n) over end.
Section Quit.
Context (to_int : string -> option Z).
Definition do_max_quit (values : list string) (s : qst) : option qst :=
  match values with
  | [] => Some s
  | v :: _ =>
      let l := split comma v in
      match to_int (fld 0 l) with
      | None => None
      | Some n =>
          if (1 <? List.length l)%nat then
            Some (if String.eqb (fld 1 l) "YES" then set_max_quit_count s n FOne
                  else if String.eqb (fld 1 l) "NO" then set_max_quit_count s n FZero else s)
          else Some (set_max_quit_count s n FOne)
      end
  end.
End Quit.
