(** Specification vocabulary for the command line. *)
From Coq Require Import List Bool Arith ZArith String Ascii.
From Verif Require Import Prelude CmdModel.
Import ListNotations.
Local Open Scope string_scope.
Local Open Scope list_scope.

(** [ys] are the elements of [xs] that the relation maps to something, mapped, in order *)
Inductive Selects {A B} (R : A -> B -> Prop) : list A -> list B -> Prop :=
| sel_nil : Selects R [] []
| sel_hit : forall x y xs ys, R x y -> Selects R xs ys -> Selects R (x :: xs) (y :: ys)
| sel_miss : forall x xs ys, (forall y, ~ R x y) -> Selects R xs ys -> Selects R (x :: xs) ys.
Definition ValueOf (m a v : string) : Prop := a = (m ++ v)%string.

(** ** Fields *)
Fixpoint join (c : string) (fs : list string) : string :=
  match fs with [] => "" | [f] => f | f :: fs => (f ++ c ++ join c fs)%string end.
Fixpoint lacks (c : ascii) (s : string) : Prop :=
  match s with EmptyString => True | String x s => x <> c /\ lacks c s end.
(** the fields of a setting *)
Definition Fields (fs : list string) : Prop := fs <> [] /\ Forall (lacks ",") fs.
Definition line (fs : list string) : string := join "," fs.

(** ** Severities and actions *)
Local Open Scope Z_scope.
Definition SevName (s : string) (z : Z) : Prop :=
  (s = "UVM_INFO" /\ z = 0) \/ (s = "UVM_WARNING" /\ z = 1) \/ (s = "UVM_ERROR" /\ z = 2) \/ (s = "UVM_FATAL" /\ z = 3).
(** the number a severity name stands for; -1 for any other word *)
Definition SevCode (s : string) (z : Z) : Prop := SevName s z \/ (z = -1 /\ forall z', ~ SevName s z').
Definition action_names : list string :=
  ["UVM_DISPLAY"; "UVM_LOG"; "UVM_COUNT"; "UVM_EXIT"; "UVM_CALL_HOOK"; "UVM_STOP"; "UVM_RM_RECORD"].
(** [a] is the set of the actions named in [s] *)
Definition ActCode (s : string) (a : Z) : Prop :=
  exists ws, ws <> [] /\ Forall (lacks "|") ws /\ s = join "|" ws /\
  0 <= a /\ forall i, Z.testbit a (Z.of_nat i) = true <-> exists n, nth_error action_names i = Some n /\ In n ws.
Definition four (f : Z -> told) : list told := [f 0; f 1; f 2; f 3].
Definition ALL := "_ALL_".

Section S.
Context (is_match : string -> string -> bool).
(** what +uvm_set_action=fs tells a component *)
Inductive ActTells (name : string) : list string -> list told -> Prop :=
| at_info : forall c i rest, ActTells name (c :: i :: "UVM_INFO" :: rest) []
| at_no_action : forall c i s t rest, ActCode t 0 -> ActTells name (c :: i :: s :: t :: rest) []
| at_other : forall c i s t rest, is_match c name = false -> ActTells name (c :: i :: s :: t :: rest) []
| at_all_all : forall c t rest a, is_match c name = true -> ActCode t a -> a <> 0 ->
    ActTells name (c :: ALL :: ALL :: t :: rest) (four (fun v => SevAction v a))
| at_all_sev : forall c s v t rest a, is_match c name = true -> ActCode t a -> a <> 0 -> s <> ALL -> SevCode s v -> v <> 0 ->
    ActTells name (c :: ALL :: s :: t :: rest) [SevAction v a]
| at_id_all : forall c i t rest a, is_match c name = true -> ActCode t a -> a <> 0 -> i <> ALL ->
    ActTells name (c :: i :: ALL :: t :: rest) [IdAction i a]
| at_id_sev : forall c i s v t rest a, is_match c name = true -> ActCode t a -> a <> 0 -> i <> ALL -> s <> ALL -> SevCode s v -> v <> 0 ->
    ActTells name (c :: i :: s :: t :: rest) [SevIdAction v i a].
(** too few fields: creating a component raises *)
Definition ActShort (fs : list string) : Prop :=
  (List.length fs < 3)%nat \/ exists c i s, fs = [c; i; s] /\ s <> "UVM_INFO".

(** what +uvm_set_severity=fs tells a component *)
Inductive SevTells (name : string) : list string -> list told -> Prop :=
| st_fields : forall fs, List.length fs <> 4%nat -> SevTells name fs []
| st_info : forall c i n, SevTells name [c; i; "UVM_INFO"; n] []
| st_new : forall c i s n, (forall z, ~ SevName n z) -> SevTells name [c; i; s; n] []
| st_other : forall c i s n, is_match c name = false -> SevTells name [c; i; s; n] []
| st_all_all : forall c n z, is_match c name = true -> SevName n z -> SevTells name [c; ALL; ALL; n] (four (fun v => SevOver v z))
| st_all_sev : forall c s v n z, is_match c name = true -> SevName n z -> s <> ALL -> SevCode s v -> v <> 0 ->
    SevTells name [c; ALL; s; n] [SevOver v z]
| st_id_all : forall c i n z, is_match c name = true -> SevName n z -> i <> ALL ->
    SevTells name [c; i; ALL; n] (four (fun v => SevIdOver v i z))
| st_id_sev : forall c i s v n z, is_match c name = true -> SevName n z -> i <> ALL -> s <> ALL -> SevCode s v -> v <> 0 ->
    SevTells name [c; i; s; n] [SevIdOver v i z].

(** ** Verbosity settings *)
Definition VLevel (s : string) (z : Z) : Prop :=
  exists w k, nth_error ["NONE"; "LOW"; "MEDIUM"; "HIGH"; "FULL"; "DEBUG"] k = Some w /\ z = 100 * Z.of_nat k /\ (s = w \/ s = ("UVM_" ++ w)%string).
Context (to_int : string -> option Z).
Inductive VGood : list string -> setting -> Prop :=
| vg4 : forall c i v p z, VLevel v z -> VGood [c; i; v; p] (Setting c i z p 0)
| vg5 : forall c i v p o z off, VLevel v z -> to_int o = Some off -> VGood [c; i; v; p; o] (Setting c i z p off).
(** the setting is for the component and takes effect at once / is kept for a later phase *)
Definition AtOnce (name : string) (s : setting) : bool :=
  is_match (v_comp s) name && (v_off s =? 0) && existsb (String.eqb (v_phase s)) [""; "build"; "time"].
Definition Kept (name : string) (s : setting) : bool :=
  is_match (v_comp s) name && negb (String.eqb (v_phase s) "time") &&
  negb ((v_off s =? 0) && existsb (String.eqb (v_phase s)) [""; "build"]).
Definition said (s : setting) : told := if String.eqb (v_id s) ALL then Verb (v_verb s) else IdVerb (v_id s) (v_verb s).
(** rejected on the first call: wrong number of fields or unknown verbosity *)
Definition VBad (fs : list string) : Prop :=
  (List.length fs <> 4 /\ List.length fs <> 5)%nat \/ exists v, nth_error fs 2 = Some v /\ forall z, ~ VLevel v z.
End S.

(** ** Configuration settings *)
Inductive carg := ArgInt (upper_case : bool) (fs : list string) | ArgStr (upper_case : bool) (fs : list string) | ArgOther (a : string).
Definition carg_text (c : carg) : string :=
  match c with
  | ArgInt true fs => ("+UVM_SET_CONFIG_INT=" ++ line fs)%string
  | ArgInt false fs => ("+uvm_set_config_int=" ++ line fs)%string
  | ArgStr true fs => ("+UVM_SET_CONFIG_STRING=" ++ line fs)%string
  | ArgStr false fs => ("+uvm_set_config_string=" ++ line fs)%string
  | ArgOther a => a
  end.
Definition carg_ok (c : carg) : Prop :=
  match c with
  | ArgInt _ fs | ArgStr _ fs => Fields fs
  | ArgOther a => forall p v, In p ["+UVM_SET_CONFIG_INT"; "+uvm_set_config_int"; "+UVM_SET_CONFIG_STRING"; "+uvm_set_config_string"] ->
                  a <> (p ++ v)%string
  end.
Section C.
Context (num : Z -> string -> option Z).
Inductive IntText : string -> option Z -> Prop :=
| it_base : forall p b x, In (p, b) [("'b", 2); ("0b", 2); ("'o", 8); ("'d", 10); ("'h", 16); ("'x", 16); ("0x", 16)] ->
    x <> "" -> IntText (p ++ x)%string (num b x)
| it_dec : forall s, (forall p x, In p ["'b"; "0b"; "'o"; "'d"; "'h"; "'x"; "0x"] -> s = (p ++ x)%string -> x = "") -> IntText s (num 10 s).
(** the effect of one integer setting; None: it raises *)
Inductive IntEff : list string -> option effect -> Prop :=
| ie_set : forall p f v z, IntText v (Some z) -> IntEff [p; f; v] (Some (SetCfg p f (CInt z)))
| ie_raise : forall p f v, IntText v None -> IntEff [p; f; v] None
| ie_bad : forall fs, List.length fs <> 3%nat -> IntEff fs (Some Complain).
Inductive StrEff : list string -> effect -> Prop :=
| se_set : forall p f v, StrEff [p; f; v] (SetCfg p f (CStr v))
| se_bad : forall fs, List.length fs <> 3%nat -> StrEff fs Complain.
End C.
Definition int_fields (l : list carg) : list (list string) := flat_map (fun c => match c with ArgInt _ fs => [fs] | _ => [] end) l.
Definition str_fields (l : list carg) : list (list string) := flat_map (fun c => match c with ArgStr _ fs => [fs] | _ => [] end) l.

(** ** Timed settings *)
Definition off_before (l : list setting) (i : nat) : Z :=
  match i with O => 0 | S j => match nth_error l j with Some s => v_off s | None => 0 end end.
