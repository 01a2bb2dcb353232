(** Model of the message reporting classes:
    src/uvm/base/uvm_report_object.py, uvm_report_handler.py,
    uvm_report_server.py, uvm_report_catcher.py and the message macros of
    src/uvm/macros/uvm_message_defines.py.

    Severities, message ids and message bodies are numbers; actions are integers
    used as bit masks; file handles are integers (0: none, 0x80000001: the
    standard output handle). *)
From Coq Require Import ZArith List Bool.
From Verif Require Import Prelude.
Import ListNotations.
Open Scope Z_scope.

(** src/uvm/base/uvm_object_globals.py 220-270 *)
Definition INFO := 0%nat.
Definition WARNING := 1%nat.
Definition ERROR := 2%nat.
Definition FATAL := 3%nat.
Definition DISPLAY := 1.
Definition LOG := 2.
Definition COUNT := 4.
Definition EXIT := 8.
Definition STOP := 32.
Definition RM_RECORD := 64.
Definition UVM_NONE := 0.
Definition UVM_LOW := 100.
Definition UVM_MEDIUM := 200.

Definition bit (a b : Z) : bool := negb (Z.land a b =? 0).

(** ** uvm_report_handler.py *)

(** The tables of the handler. [si_ovr id] is [Some] once any override for that
    id was set (580-582). [sev_act] and [sev_file] have an entry for each severity
    from [initialize] on. *)
Record handler := Handler {
  h_verb : Z;
  id_verb : nat -> option Z;
  si_verb : nat -> nat -> option Z;
  sev_act : nat -> Z;
  id_act : nat -> option Z;
  si_act : nat -> nat -> option Z;
  sev_ovr : nat -> option nat;
  si_ovr : nat -> option (nat -> option nat);
  h_file : Z;
  sev_file : nat -> Z;
  id_file : nat -> option Z;
  si_file : nat -> nat -> option Z
}.

Definition default_action (sev : nat) : Z :=
  if Nat.eqb sev ERROR then Z.lor DISPLAY COUNT
  else if Nat.eqb sev FATAL then Z.lor DISPLAY EXIT
  else DISPLAY.

(** 358-374: only these four settings are touched. *)
Definition initialize (h : handler) : handler :=
  Handler UVM_MEDIUM (id_verb h) (si_verb h) default_action (id_act h) (si_act h)
    (sev_ovr h) (si_ovr h) 0 (fun _ => 0) (id_file h) (si_file h).

Definition handler0 : handler :=
  initialize (Handler 0 (fun _ => None) (fun _ _ => None) (fun _ => 0) (fun _ => None)
    (fun _ _ => None) (fun _ => None) (fun _ => None) 0 (fun _ => 0) (fun _ => None)
    (fun _ _ => None)).

Definition upd2 {B} (f : nat -> nat -> B) (i j : nat) (v : B) : nat -> nat -> B :=
  upd f i (upd (f i) j v).

(** The setters 399-405, 485-582; [HReset] is [reset_report_handler], which calls
    [initialize]. *)
Inductive hop :=
| HVerb (v : Z) | HIdVerb (id : nat) (v : Z) | HSidVerb (sev id : nat) (v : Z)
| HSevAct (sev : nat) (a : Z) | HIdAct (id : nat) (a : Z) | HSidAct (sev id : nat) (a : Z)
| HSevOvr (sev new : nat) | HSidOvr (sev id new : nat)
| HFile (f : Z) | HSevFile (sev : nat) (f : Z) | HIdFile (id : nat) (f : Z)
| HSidFile (sev id : nat) (f : Z)
| HReset.

Definition hset (h : handler) (op : hop) : handler :=
  let '(Handler v iv sv sa ia sia so sio f sf idf sif) := h in
  match op with
  | HVerb x => Handler x iv sv sa ia sia so sio f sf idf sif
  | HIdVerb id x => Handler v (upd iv id (Some x)) sv sa ia sia so sio f sf idf sif
  | HSidVerb s id x => Handler v iv (upd2 sv s id (Some x)) sa ia sia so sio f sf idf sif
  | HSevAct s a => Handler v iv sv (upd sa s a) ia sia so sio f sf idf sif
  | HIdAct id a => Handler v iv sv sa (upd ia id (Some a)) sia so sio f sf idf sif
  | HSidAct s id a => Handler v iv sv sa ia (upd2 sia s id (Some a)) so sio f sf idf sif
  | HSevOvr s n => Handler v iv sv sa ia sia (upd so s (Some n)) sio f sf idf sif
  | HSidOvr s id n =>
      let p := match sio id with Some p => p | None => fun _ => None end in
      Handler v iv sv sa ia sia so (upd sio id (Some (upd p s (Some n)))) f sf idf sif
  | HFile x => Handler v iv sv sa ia sia so sio x sf idf sif
  | HSevFile s x => Handler v iv sv sa ia sia so sio f (upd sf s x) idf sif
  | HIdFile id x => Handler v iv sv sa ia sia so sio f sf (upd idf id (Some x)) sif
  | HSidFile s id x => Handler v iv sv sa ia sia so sio f sf idf (upd2 sif s id (Some x))
  | HReset => initialize h
  end.

Definition configure (ops : list hop) : handler := fold_left hset ops handler0.

(** 407-428 *)
Definition get_verbosity_level (h : handler) (sev id : nat) : Z :=
  match si_verb h sev id with
  | Some v => v
  | None => match id_verb h id with Some v => v | None => h_verb h end
  end.

(** 430-452 *)
Definition get_action (h : handler) (sev id : nat) : Z :=
  match si_act h sev id with
  | Some a => a
  | None => match id_act h id with Some a => a | None => sev_act h sev end
  end.

(** 376-397 *)
Definition get_severity_id_file (h : handler) (sev id : nat) : Z :=
  match si_file h sev id with
  | Some f => f
  | None => match id_file h id with Some f => f | None => sev_file h sev end
  end.

(** 454-482 *)
Definition get_file_handle (h : handler) (sev id : nat) : Z :=
  let f := get_severity_id_file h sev id in
  if negb (f =? 0) then f
  else
    let idf := match id_file h id with Some f => f | None => 0 end in
    if negb (idf =? 0) then idf
    else if negb (sev_file h sev =? 0) then sev_file h sev
    else h_file h.

(** 310-317: the severity a message is processed with. *)
Definition override (h : handler) (sev id : nat) : nat :=
  match si_ovr h id with
  | Some p => match p sev with Some n => n | None => sev end
  | None => match sev_ovr h sev with Some n => n | None => sev end
  end.

(** ** uvm_report_object.py *)

(** 109-125 *)
Definition report_enabled (h : handler) (verb : Z) (sev id : nat) : bool :=
  verb <=? get_verbosity_level h sev id.

(** [get_verbosity], used by 136-137 *)
Definition default_verbosity (sev : nat) : Z :=
  if Nat.eqb sev ERROR then UVM_LOW
  else if Nat.eqb sev FATAL then UVM_NONE
  else UVM_MEDIUM.

(** 127-146: is the message handed to the handler? [checked] is the argument
    report_enabled_checked (anything but False). *)
Definition uvm_report (h : handler) (sev id : nat) (verb : Z) (checked : bool) : bool :=
  let verb := if verb =? -1 then default_verbosity sev else verb in
  if checked then true else report_enabled h verb sev id.

(** uvm_message_defines.py, uvm_info / uvm_warning / uvm_error / uvm_fatal called in
    a component with handler [h]: the check is made on the root's handler [top]. *)
Definition macro_report (top h : handler) (sev id : nat) (verb : Z) : bool :=
  if report_enabled top verb sev id then uvm_report h sev id verb true else false.
(** uvm_info_context / uvm_error_context: the check is made on the given object. *)
Definition macro_context (h : handler) (sev id : nat) (verb : Z) : bool :=
  if report_enabled h verb sev id then uvm_report h sev id verb true else false.

(** ** uvm_report_server.py *)

(** What catchers can see and change of a message (uvm_report_catcher.py
    160-320); the file is fixed by the handler. *)
Record msg := Msg { m_sev : nat; m_id : nat; m_act : Z; m_body : nat; m_file : Z }.

Definition set_act (m : msg) (a : Z) : msg :=
  Msg (m_sev m) (m_id m) a (m_body m) (m_file m).

Record server := Server {
  sev_cnt : nat -> Z;
  id_cnt : nat -> Z;
  quit : Z;
  max_quit : Z;
  overridable : bool;
  record_all : bool;
  die_raises : bool    (* UVMRoot.raise_exception_on_die, uvm_root.py 357 *)
}.

Definition set_counts (s : server) (sc ic : nat -> Z) (q : Z) : server :=
  Server sc ic q (max_quit s) (overridable s) (record_all s) (die_raises s).

(** One executed message: final severity, id and action (before 475 adds EXIT
    to it), how often its text was
    written to the screen, the file it was logged to, and whether the run was
    told to end ([UVMRoot.die], uvm_root.py 340-358). Messages that [die] itself
    reports (the summary) are further messages of the history. *)
Inductive ev :=
| EExec (m : msg) (shown : nat) (logged : option Z) (died : bool)
| ESetSev (sev : nat) (n : Z)
| EResetSev
| ESetId (id : nat) (n : Z)
| ESees (i : nat) (m : msg)       (* catcher number i is called with this message *)
| EExn.                           (* an exception leaves the reporting call *)

(** 404-486. The result says whether an exception is raised. Recording (424-452)
    ends in a KeyError at line 447, as nothing ever puts an entry in [m_streams].
    354-371: file 0 means the screen; other handles are open files. *)
Definition execute (s : server) (m : msg) : server * list ev * bool :=
  let sc := upd (sev_cnt s) (m_sev m) (sev_cnt s (m_sev m) + 1) in
  let ic := upd (id_cnt s) (m_id m) (id_cnt s (m_id m) + 1) in
  let act := if record_all s then Z.lor (m_act m) RM_RECORD else m_act m in
  if bit act RM_RECORD
  then (set_counts s sc ic (quit s), [EExec (set_act m act) 0 None false], true)
  else
    let logs := bit act LOG && negb (m_file m =? 2147483649) in
    let screen := m_file m =? 0 in
    let shown := ((if bit act DISPLAY then 1 else 0) +
                  (if logs && screen then 1 else 0))%nat in
    let logged := if logs && negb screen then Some (m_file m) else None in
    let counts := bit act COUNT && negb (max_quit s =? 0) in
    let q := if counts then quit s + 1 else quit s in
    let act2 := if counts && (max_quit s <=? q) then Z.lor act EXIT else act in
    let died := bit act2 EXIT in
    (set_counts s sc ic q, [EExec (set_act m act) shown logged died],
     (died && die_raises s) || bit act2 STOP).

(** 193-203 *)
Definition set_max_quit_count (s : server) (n : Z) (ov : bool) : server :=
  if overridable s
  then Server (sev_cnt s) (id_cnt s) (quit s) (if n <? 0 then 0 else n) ov
              (record_all s) (die_raises s)
  else s.

(** ** uvm_report_catcher.py *)

Inductive verdict := VThrow | VCaught | VUnknown | VRaises.

(** A user's [catch]: the messages it issues itself while running (uvm_report_*
    and issue(), 412-511), the message as it leaves it, and what it returns. *)
Definition catch_fn := msg -> list msg * msg * verdict.

(** An entry of the callback queue of the reporting object: a catcher or another
    kind of callback, and whether it is enabled. *)
Inductive centry := Catcher (on : bool) (f : catch_fn) | Other (on : bool).

(** Messages issued from a catcher: executed directly when they have an action
    (480, 507). *)
Fixpoint issue_all (s : server) (l : list msg) : server * list ev * bool :=
  match l with
  | [] => (s, [], false)
  | m :: l' =>
      if m_act m =? 0 then issue_all s l'
      else
        let '(s1, e1, x1) := execute s m in
        if x1 then (s1, e1, true)
        else let '(s2, e2, x2) := issue_all s1 l' in (s2, e1 ++ e2, x2)
  end.

Inductive cres := RThrown | RCaught | RRaised.

Section Catch.
  (** the reporting object's handler; [odd_id] stands for the id of 567/570 that
      nobody uses, [thr_id] for RPTCTHR (605) *)
  Context (h : handler) (odd_id thr_id : nat).

  (** 564-570. [m_set_action_called] read here is the class attribute, which
      set_action (291-293) never sets: it stores on the catcher object. *)
  Definition fix_action (prev : nat) (m : msg) : msg :=
    if negb (Nat.eqb (m_sev m) prev) && (m_act m =? get_action h prev odd_id)
    then set_act m (get_action h (m_sev m) odd_id) else m.

  (** 605-606 *)
  Definition thr_msg : msg :=
    Msg ERROR thr_id (get_action h ERROR thr_id) 0 (get_file_handle h ERROR thr_id).

  (** 549-580, entries from number [i] on. [get_next] is called without a class
      (553, 580), so it also returns callbacks that are not catchers; a disabled
      entry is skipped (552). *)
  Fixpoint catch_rest (s : server) (i : nat) (q : list centry) (m : msg)
    : server * list ev * msg * cres :=
    match q with
    | [] => (s, [], m, RThrown)
    | Catcher false _ :: q' | Other false :: q' => catch_rest s (S i) q' m
    | Other true :: _ => (s, [], m, RRaised)
    | Catcher true f :: q' =>
        let '(l, m1, v) := f m in
        let '(s1, e1, x1) := issue_all s (l ++ match v with VUnknown => [thr_msg] | _ => [] end) in
        if x1 then (s1, ESees i m :: e1, m1, RRaised)
        else
          match v with
          | VRaises => (s1, ESees i m :: e1, m1, RRaised)
          | VCaught => (s1, ESees i m :: e1, fix_action (m_sev m) m1, RCaught)
          | _ =>
              let '(s2, e2, m2, r) := catch_rest s1 (S i) q' (fix_action (m_sev m) m1) in
              (s2, ESees i m :: e1 ++ e2, m2, r)
          end
    end.

  (** 536 [get_first]: the first enabled catcher. *)
  Fixpoint catch_first (s : server) (i : nat) (q : list centry) (m : msg)
    : server * list ev * msg * cres :=
    match q with
    | [] => (s, [], m, RThrown)
    | Catcher true _ :: _ => catch_rest s i q m
    | _ :: q' => catch_first s (S i) q' m
    end.
End Catch.

Record sys := Sys {
  srv : server;
  in_catcher : bool;
  caught : nat -> Z;       (* m_caught_* by severity *)
  demoted : nat -> Z       (* m_demoted_* *)
}.

(** 518-595: the loop and its bookkeeping. [in_catcher] is only reset when no
    exception leaves (593). The result says: go on to execute (527-528: during a
    catcher, always), do not, or an exception. *)
Definition all_catchers (y : sys) (h : handler) (odd thr : nat) (q : list centry) (m : msg)
  : sys * list ev * msg * cres :=
  if in_catcher y then (y, [], m, RThrown)
  else
    let '(s1, e, m1, r) := catch_first h odd thr (srv y) 0 q m in
    match r with
    | RRaised => (Sys s1 true (caught y) (demoted y), e, m1, RRaised)
    | _ =>
        let o := m_sev m in
        let counted := (Nat.leb WARNING o && Nat.leb o FATAL)%bool in
        let c := match r with
                 | RCaught => if counted then upd (caught y) o (caught y o + 1) else caught y
                 | _ => caught y
                 end in
        let d := if counted && Nat.ltb (m_sev m1) o
                 then upd (demoted y) o (demoted y o + 1) else demoted y in
        (Sys s1 false c d, e, m1, r)
    end.

(** uvm_report_handler.py 295-321 and uvm_report_server.py 373-397: a message that
    passed the verbosity check. *)
Definition process (y : sys) (h : handler) (odd thr : nat) (q : list centry)
    (sev id body : nat) : sys * list ev :=
  let sev := override h sev id in
  let m := Msg sev id (get_action h sev id) body (get_file_handle h sev id) in
  let '(y1, e1, m1, r) := all_catchers y h odd thr q m in
  match r with
  | RRaised => (y1, e1 ++ [EExn])
  | RCaught => (y1, e1)
  | RThrown =>
      if m_act m1 =? 0 then (y1, e1)
      else
        let '(s2, e2, x) := execute (srv y1) m1 in
        (Sys s2 (in_catcher y1) (caught y1) (demoted y1),
         e1 ++ e2 ++ if x then [EExn] else [])
  end.

(** Histories: messages of any object (its handler and callback queue at that
    time) and the server's own calls (193-345). *)
Inductive rop :=
| RMsg (h : handler) (odd thr : nat) (q : list centry) (sev id body : nat)
| RSetMax (n : Z) (ov : bool)
| RSetQuit (n : Z)
| RSetSev (sev : nat) (n : Z)
| RResetSev
| RSetId (id : nat) (n : Z).

Definition with_srv (y : sys) (s : server) : sys :=
  Sys s (in_catcher y) (caught y) (demoted y).

Definition clip (n : Z) : Z := if n <? 0 then 0 else n.

Definition rstep (y : sys) (op : rop) : sys * list ev :=
  let s := srv y in
  match op with
  | RMsg h odd thr q sev id body => process y h odd thr q sev id body
  | RSetMax n ov => (with_srv y (set_max_quit_count s n ov), [])
  | RSetQuit n => (with_srv y (set_counts s (sev_cnt s) (id_cnt s) (clip n)), [])
  | RSetSev k n =>
      (with_srv y (set_counts s (upd (sev_cnt s) k (clip n)) (id_cnt s) (quit s)),
       [ESetSev k n])
  | RResetSev =>
      (with_srv y (set_counts s (fun k => if Nat.leb k FATAL then 0 else sev_cnt s k)
                              (id_cnt s) (quit s)), [EResetSev])
  | RSetId k n =>
      (with_srv y (set_counts s (sev_cnt s) (upd (id_cnt s) k (clip n)) (quit s)),
       [ESetId k n])
  end.

Definition server0 (rec raises : bool) : server :=
  Server (fun _ => 0) (fun _ => 0) 0 0 true rec raises.
Definition sys0 (rec raises : bool) : sys :=
  Sys (server0 rec raises) false (fun _ => 0) (fun _ => 0).
