(** Model of the report server's tables of counts, of what it hands out about them
    and of the text of a message: src/uvm/base/uvm_report_server.py.
    Left out: recording, what EXIT and STOP do, the catchers themselves (all in
    ReportModel.v), message elements, and the layout of the printed table. *)
From Coq Require Import ZArith List Bool Arith String Ascii DecimalString Lia.
From Verif Require Import Prelude PyList PoolModel.
Import ListNotations.
Open Scope Z_scope.

Section Counts.
  Context {K : Type} (dec : forall a b : K, {a = b} + {a <> b}).
  Notation tab := (pool K Z).
  Notation pget := (p_get dec None).

  (** incr_severity_count 273-278, incr_id_count 310-315: the pools have no
      constructor of their own (59-60). *)
  Definition incr (p : tab) (k : K) : tab :=
    if p_exists dec p k
    then match pget p k with (p1, PVal v) => p_add dec p1 k (v + 1) | (p1, _) => p1 end
    else p_add dec p k 1.

  (** set_severity_count 266-270, set_id_count 301-305 *)
  Definition set_count (p : tab) (k : K) (n : Z) : tab :=
    p_add dec p k (if n <? 0 then 0 else n).

  (** get_severity_count 252-263, get_id_count 295-298 *)
  Definition get_count (p : tab) (k : K) : pres K Z :=
    if p_exists dec p k then snd (pget p k) else PVal 0.

  (** get_severity_set 346-348, get_id_set 350-352. The loop ends after at most as
      many turns as there are entries. *)
  Definition take (p : tab) : tab * list (pres K Z) :=
    match next_loop (S (List.length (dct p))) p with Some r => r | None => (p, []) end.

  (** do_print 139-150, 152-162: the loop over the entries from the first on. *)
  Fixpoint print_loop (fuel : nat) (p : tab) (k : pres K Z) : tab * list (pres K Z * pres K Z) :=
    match fuel, k with
    | S fuel, PKey x =>
        let e := (k, p_getitem dec p x) in
        if p_has_next p then
          let '(p1, k1) := p_next p in
          let '(p2, l) := print_loop fuel p1 k1 in (p2, e :: l)
        else (p, [e])
    | _, _ => (p, [])
    end.
  Definition print_tab (p : tab) : tab * list (pres K Z * pres K Z) :=
    if p_has_first p then
      let '(p1, k) := p_first p in print_loop (List.length (dct p)) p1 k
    else (p, []).

  (** 592-593, 597-598: one line per key, with get(). *)
  Definition lines (p : tab) : list (K * pres K Z) :=
    map (fun k => (k, snd (pget p k))) (d_keys (dct p)).
End Counts.

(** 54-73 *)
Record srv := Srv {
  quit : Z; maxq : Z;
  sevs : pool nat Z;
  ids : pool string Z;
  id_summary : bool;      (* enable_report_id_count_summary *)
  show_verb : bool        (* show_verbosity *)
}.
Definition levels : list nat := [0; 1; 2; 3]%nat.
Definition reset_sevs (p : pool nat Z) : pool nat Z := fold_left (fun p s => p_add Nat.eq_dec p s 0) levels p.
Definition srv0 : srv := Srv 0 0 (reset_sevs pool0) pool0 true false.

(** The text get_summary_string returns, 583-599: per line what it says. *)
Inductive line :=
| LTitle
| LReached
| LQuit (n max : Z)
| LSevTitle
| LSev (sev : nat) (n : pres nat Z)
| LIdTitle
| LId (id : string) (n : pres string Z).
Definition summary (s : srv) : list line :=
  [LTitle] ++
  (if negb (maxq s =? 0)
   then (if maxq s <=? quit s then [LReached] else []) ++ [LQuit (quit s) (maxq s)] else []) ++
  [LSevTitle] ++ map (fun e => LSev (fst e) (snd e)) (lines Nat.eq_dec (sevs s)) ++
  (if id_summary s then [LIdTitle] ++ map (fun e => LId (fst e) (snd e)) (lines string_dec (ids s)) else []).

Inductive op :=
| Report (sev : nat) (id : string) (shown counted : bool)
    (* a message gets as far as line 394; [shown]: its action has DISPLAY or LOG,
       [counted]: it has COUNT *)
| SetSev (sev : nat) (n : Z) | SetId (id : string) (n : Z) | ResetSevs
| SetQuit (n : Z) | SetMax (n : Z) (* while overridable *)
| IdSummary (b : bool) | ShowVerb (b : bool)
| SevSet | IdSet
| SevCount (sev : nat) | IdCount (id : string)
| Print
| Summary (catcher : option (bool * bool)).
    (* get_summary_string; [catcher]: the message of UVMReportCatcher.summarize
       (uvm_report_catcher.py 620-633) gets as far as line 394 with this action *)

Inductive out :=
| OExn                             (* TypeError of line 532 *)
| OSevSet (l : list (pres nat Z))
| OIdSet (l : list (pres string Z))
| OSevCount (r : pres nat Z)
| OIdCount (r : pres string Z)
| OPrint (sv : list (pres nat Z * pres nat Z))
         (iv : list (pres string Z * pres string Z))
| OSummary (l : list line).

Definition catcher_id : string := "UVM/REPORT/CATCHER"%string.

(** 394-397 with 530-532 (the verbosity is a number, so that adding it to a string
    raises), 417-418 and 470-472. *)
Definition report (s : srv) (sev : nat) (id : string) (shown counted : bool) : srv * list out :=
  if shown && show_verb s then (s, [OExn])
  else (Srv (if counted && negb (maxq s =? 0) then quit s + 1 else quit s) (maxq s)
            (incr Nat.eq_dec (sevs s) sev) (incr string_dec (ids s) id) (id_summary s) (show_verb s), []).

Definition step (s : srv) (o : op) : srv * list out :=
  match o with
  | Report sev id shown counted => report s sev id shown counted
  | SetSev sev n => (Srv (quit s) (maxq s) (set_count Nat.eq_dec (sevs s) sev n) (ids s) (id_summary s) (show_verb s), [])
  | SetId id n => (Srv (quit s) (maxq s) (sevs s) (set_count string_dec (ids s) id n) (id_summary s) (show_verb s), [])
  | ResetSevs => (Srv (quit s) (maxq s) (reset_sevs (sevs s)) (ids s) (id_summary s) (show_verb s), [])
  | SetQuit n => (Srv (if n <? 0 then 0 else n) (maxq s) (sevs s) (ids s) (id_summary s) (show_verb s), [])
  | SetMax n => (Srv (quit s) (if n <? 0 then 0 else n) (sevs s) (ids s) (id_summary s) (show_verb s), [])
  | IdSummary b => (Srv (quit s) (maxq s) (sevs s) (ids s) b (show_verb s), [])
  | ShowVerb b => (Srv (quit s) (maxq s) (sevs s) (ids s) (id_summary s) b, [])
  | SevSet => let '(p, l) := take (sevs s) in
      (Srv (quit s) (maxq s) p (ids s) (id_summary s) (show_verb s), [OSevSet l])
  | IdSet => let '(p, l) := take (ids s) in
      (Srv (quit s) (maxq s) (sevs s) p (id_summary s) (show_verb s), [OIdSet l])
  | SevCount sev => (s, [OSevCount (get_count Nat.eq_dec (sevs s) sev)])
  | IdCount id => (s, [OIdCount (get_count string_dec (ids s) id)])
  | Print =>
      let '(p, l) := print_tab Nat.eq_dec (sevs s) in
      let '(q, m) := print_tab string_dec (ids s) in
      (Srv (quit s) (maxq s) p q (id_summary s) (show_verb s), [OPrint l m])
  | Summary None => (s, [OSummary (summary s)])
  | Summary (Some (shown, counted)) =>
      let '(s1, e) := report s 0%nat catcher_id shown counted in
      match e with
      | [] => (s1, [OSummary (summary s1)])
      | _ => (s1, e)
      end
  end.
Definition run (ops : list op) : srv * list out := run_machine step srv0 ops.

(** ** compose_report_message 488-556, ename 19-40 *)
Record text := Text {
  t_sev : nat; t_file : string; t_line : nat;
  t_time : string;           (* 525 without the unit *)
  t_name : string;           (* the full name of the reporting object, 546-551 *)
  t_ctx : string; t_id : string; t_body : string
}.
Definition num (n : nat) : string := NilEmpty.string_of_uint (Nat.to_uint n).
Definition ename (sev : nat) : string :=
  match sev with
  | 0%nat => "UVM_INFO" | 1%nat => "UVM_WARNING" | 2%nat => "UVM_ERROR" | 3%nat => "UVM_FATAL"
  | _ => "UNKNOWN_SEVERITY: " ++ num sev
  end%string.
(** [None]: the TypeError of line 532. *)
Definition compose (show_verbosity show_terminator : bool) (t : text) : option string :=
  if show_verbosity then None else
  Some (
  let fl := if string_dec (t_file t) "" then "" else t_file t ++ "(" ++ num (t_line t) ++ ") " in
  let cx := if string_dec (t_ctx t) "" then "" else "@@" ++ t_ctx t in
  let te := if show_terminator then " -" ++ ename (t_sev t) else "" in
  ename (t_sev t) ++ " " ++ fl ++ "@ " ++ (t_time t ++ "NS") ++ ": " ++ t_name t ++ cx ++ " [" ++ t_id t ++ "] " ++ t_body t ++ te)%string.
