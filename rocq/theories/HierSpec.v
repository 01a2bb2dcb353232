(** Settings by history: what was said about a component since it was created. *)
From Coq Require Import List Bool Arith ZArith.
From Verif Require Import Prelude ReportModel ReportSpec HierModel.
Import ListNotations.
Local Open Scope nat_scope.

(** Parents in the order of creation; component k+1 is the k-th one created. *)
Definition news (h : list label) : list nat := flat_map (fun l => match l with LNew p _ => [p] | _ => [] end) h.
Definition many (h : list label) : nat := S (length (news h)).
Definition child_of (h : list label) (p x : nat) : Prop := 0 < x /\ nth_error (news h) (x - 1) = Some p.
(** [x] is [a] or below *)
Inductive under (h : list label) (a : nat) : nat -> Prop :=
| under_refl : under h a a
| under_child p x : child_of h p x -> under h a p -> under h a x.
(** Calls are made on components that exist. *)
Definition target (l : label) : nat :=
  match l with LNew c _ | LReport c _ | LReportHier c _ | LDomain c _ _ | LImp c _ _ _ => c | LDie => 0 end.
Definition proper (h : list label) : Prop := forall h1 l h2, h = h1 ++ l :: h2 -> target l < many h1.

(** The settings that have a form for the component and all below it: all but the two kinds of override and the reset *)
Definition hier_form (op : hop) : Prop := (forall a b, op <> HSevOvr a b) /\ (forall a b c, op <> HSidOvr a b c) /\ op <> HReset.
(** What one call says to component [x] *)
Inductive says_report (h : list label) (x : nat) : label -> hop -> Prop :=
| says_own op : says_report h x (LReport x op) op
| says_above c op : under h c x -> hier_form op -> says_report h x (LReportHier c op) op.
Inductive says_domain (h : list label) (x : nat) : label -> nat -> Prop :=
| dom_own d f : says_domain h x (LDomain x d f) d
| dom_above c d : under h c x -> says_domain h x (LDomain c d FTrue) d.
Inductive says_imp (h : list label) (x ph : nat) : label -> nat -> Prop :=
| imp_own i f : says_imp h x ph (LImp x ph i f) i
| imp_above c i f : under h c x -> f <> FFalse -> says_imp h x ph (LImp c ph i f) i.

(** What was said since, in order *)
Inductive said (h : list label) (x : nat) : list label -> list hop -> Prop :=
| said_nil : said h x [] []
| said_yes l ls op ops : says_report h x l op -> said h x ls ops -> said h x (l :: ls) (op :: ops)
| said_no l ls ops : (forall op, ~ says_report h x l op) -> said h x ls ops -> said h x (l :: ls) ops.

(** The last call that says something, or nothing *)
Inductive last_said {V} (says : label -> V -> Prop) : list label -> option V -> Prop :=
| last_none ls : (forall l v, In l ls -> ~ says l v) -> last_said says ls None
| last_some ls1 l ls2 v : says l v -> (forall l' v', In l' ls2 -> ~ says l' v') -> last_said says (ls1 ++ l :: ls2) (Some v).

(** [x] was created by [h1 ++ LNew p cl :: h2] right after [h1]. *)
Definition made (h h1 : list label) (p : nat) (cl : list hop) (h2 : list label) (x : nat) : Prop :=
  h = h1 ++ LNew p cl :: h2 /\ x = many h1.

(** The domain of a component: the last one said to it, otherwise the one its parent had when
    it was created. *)
Inductive in_domain : list label -> nat -> nat -> Prop :=
| id_top_default h : last_said (says_domain h 0) h None -> in_domain h 0 0
| id_top h d : last_said (says_domain h 0) h (Some d) -> in_domain h 0 d
| id_said h h1 p cl h2 x d : made h h1 p cl h2 x -> last_said (says_domain h x) h2 (Some d) -> in_domain h x d
| id_parent h h1 p cl h2 x d : made h h1 p cl h2 x -> last_said (says_domain h x) h2 None -> in_domain h1 p d -> in_domain h x d.

(** Calls about the verbosity of messages with one id; calls about the general level *)
Definition about (i : nat) (op : hop) : bool := match op with HIdVerb j _ | HSidVerb _ j _ => Nat.eqb j i | _ => false end.
Definition general (op : hop) : bool := match op with HVerb _ | HReset => true | _ => false end.
Definition ops_of (l : label) : list hop := match l with LNew _ cl => cl | LReport _ op | LReportHier _ op => [op] | _ => [] end.
Definition none_about (i : nat) (ops : list hop) : Prop := forall op, In op ops -> about i op = false.
Definition none_general (ops : list hop) : Prop := forall op, In op ops -> general op = false.

(** [a] is in front of [b] *)
Definition in_front (l : list nat) (a b : nat) : Prop := exists l1 l2 l3, l = l1 ++ a :: l2 ++ b :: l3.
