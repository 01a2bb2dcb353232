(** What the scanning properties talk about. *)
From Coq Require Import ZArith List Bool Arith String Ascii.
From Verif Require Import Prelude ScanModel.
Import ListNotations.
Local Open Scope Z_scope.
Local Open Scope list_scope.

(** ** Numerals: digits, with single underscores between them *)
Inductive digit (base : Z) : ascii -> Z -> Prop :=
| d_dec c : 48 <= code c <= 57 -> code c - 48 < base -> digit base c (code c - 48)
| d_low c : 97 <= code c <= 102 -> code c - 87 < base -> digit base c (code c - 87)
| d_up c : 65 <= code c <= 70 -> code c - 55 < base -> digit base c (code c - 55).
Inductive numeral (base : Z) : text -> Z -> Prop :=
| n_one c d : digit base c d -> numeral base [c] d
| n_more s v c d : numeral base s v -> digit base c d -> numeral base (s ++ [c]) (v * base + d)
| n_us s v c d : numeral base s v -> digit base c d -> numeral base (s ++ ["_"%char; c]) (v * base + d).
Definition blank (c : ascii) : Prop := 9 <= code c <= 13 \/ 28 <= code c <= 32.
Inductive signed (base : Z) : text -> Z -> Prop :=
| s_plain s v : numeral base s v -> signed base s v
| s_plus s v : numeral base s v -> signed base ("+"%char :: s) v
| s_minus s v : numeral base s v -> signed base ("-"%char :: s) (- v).
Definition integer (base : Z) (s : text) (v : Z) : Prop :=
  exists a b s', Forall blank a /\ Forall blank b /\ s = a ++ s' ++ b /\ signed base s' v.

(** ** Reading a text *)
(** The characters a conversion takes. *)
Definition between (a b : Z) (c : ascii) : Prop := a <= code c <= b.
Definition taken (k : kind) (c : ascii) : Prop :=
  c = "_"%char \/
  match k with
  | KD => between 48 57 c
  | KB => between 48 49 c
  | KO => between 48 55 c
  | KH => between 48 57 c \/ between 97 102 c \/ between 65 70 c
  | KS => between 48 57 c \/ between 97 122 c \/ between 65 90 c
  end.
(** What is passed over in search of it. A letter o hides the next character from %o; %h looks
    at two characters at a time. *)
Inductive passed : kind -> text -> Prop :=
| p_nil k : passed k []
| p_plain k c s : k = KD \/ k = KB \/ k = KS -> ~ taken k c -> passed k s -> passed k (c :: s)
| p_oct c s : ~ taken KO c -> c <> "o"%char -> passed KO s -> passed KO (c :: s)
| p_o c s : passed KO s -> passed KO ("o"%char :: c :: s)
| p_pair a b s : ~ (a = "0"%char /\ b = "x"%char) -> passed KH s -> passed KH (a :: b :: s)
| p_0x c s : ~ taken KH c -> passed KH s -> passed KH ("0"%char :: "x"%char :: c :: s).
Definition lead (k : kind) : text := match k with KH => ["0"%char; "x"%char] | _ => [] end.
(** An end of the text too short for a decision. *)
Definition stub (k : kind) (s : text) : Prop :=
  s = [] \/ k = KO /\ s = ["o"%char] \/ k = KH /\ (s = ["0"%char; "x"%char] \/ exists c, s = [c]).
(** What follows the characters taken: a newline is taken too; the next character is lost. *)
Inductive after (k : kind) : text -> text -> text -> Prop :=
| a_end : after k [] [] []
| a_nl : after k [nl] [nl] []
| a_nl_lost c t : after k (nl :: c :: t) [nl] t
| a_lost c t : ~ taken k c -> c <> nl -> after k (c :: t) [] t.
(** [found k t w rest]: in [t] the conversion finds the word [w]; [rest] is left. *)
Definition found (k : kind) (t w rest : text) : Prop :=
  exists p run e m, passed k p /\ run <> [] /\ Forall (taken k) run /\ after k e m rest /\
    t = p ++ lead k ++ run ++ e /\ w = run ++ m.
Definition nothing (k : kind) (t : text) : Prop := exists p e, passed k p /\ stub k e /\ t = p ++ e.
(** The conversions of [ks] find the words [ws], in order; [left]: those that find nothing. *)
Inductive reads : list kind -> text -> list (kind * text) -> list kind -> Prop :=
| r_done t : reads [] t [] []
| r_word k ks t w rest ws left : found k t w rest -> reads ks rest ws left -> reads (k :: ks) t ((k, w) :: ws) left
| r_none k ks t : nothing k t -> reads (k :: ks) t [] (k :: ks).

(** The value of a word. *)
Definition base_of (k : kind) : Z := match k with KH => 16 | KB => 2 | KO => 8 | _ => 10 end.
Inductive means : kind * text -> val -> Prop :=
| m_str w : means (KS, w) (VStr w)
| m_int k w z : k <> KS -> integer (base_of k) w z -> means (k, w) (VInt z).

(** ** Verbosity on the command line *)
Definition level_names : list (string * Z) :=
  [("NONE", 0); ("LOW", 100); ("MEDIUM", 200); ("HIGH", 300); ("FULL", 400); ("DEBUG", 500)]%string.
Definition names_level (s : string) (z : Z) : Prop :=
  exists n, In (n, z) level_names /\ (s = n \/ s = String.append "UVM_" n).
