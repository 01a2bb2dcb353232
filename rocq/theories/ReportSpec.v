(** What users expect of the reporting calls, stated over the history of calls
    and the events observed. *)
From Coq Require Import ZArith List Bool.
From Verif Require Import ReportModel.
Import ListNotations.
Open Scope Z_scope.

(** The last call of the history that says something about the question asked. *)
Definition last_of {A} (f : hop -> option A) (ops : list hop) : option A :=
  fold_left (fun acc op => match f op with Some a => Some a | None => acc end) ops None.

Definition dflt {A} (o : option A) (d : A) : A := match o with Some a => a | None => d end.
Definition first_of {A} (o p : option A) : option A :=
  match o with Some a => Some a | None => p end.

Definition both (s s' i i' : nat) : bool := Nat.eqb s s' && Nat.eqb i i'.

(** Settings by key. A reset restores the unkeyed and the severity settings. *)
Definition f_verb op := match op with HVerb v => Some v | HReset => Some 200 | _ => None end.
Definition f_id_verb i op :=
  match op with HIdVerb i' v => if Nat.eqb i i' then Some v else None | _ => None end.
Definition f_si_verb s i op :=
  match op with HSidVerb s' i' v => if both s s' i i' then Some v else None | _ => None end.
Definition f_sev_act s op :=
  match op with
  | HSevAct s' a => if Nat.eqb s s' then Some a else None
  | HReset => Some (match s with 2%nat => 5 | 3%nat => 9 | _ => 1 end)
  | _ => None
  end.
Definition f_id_act i op :=
  match op with HIdAct i' v => if Nat.eqb i i' then Some v else None | _ => None end.
Definition f_si_act s i op :=
  match op with HSidAct s' i' v => if both s s' i i' then Some v else None | _ => None end.
Definition f_sev_ovr s op :=
  match op with HSevOvr s' v => if Nat.eqb s s' then Some v else None | _ => None end.
Definition f_si_ovr s i op :=
  match op with HSidOvr s' i' v => if both s s' i i' then Some v else None | _ => None end.
Definition f_any_ovr i op :=
  match op with HSidOvr _ i' _ => if Nat.eqb i i' then Some tt else None | _ => None end.
Definition f_file op := match op with HFile v => Some v | HReset => Some 0 | _ => None end.
Definition f_sev_file s op :=
  match op with
  | HSevFile s' v => if Nat.eqb s s' then Some v else None
  | HReset => Some 0
  | _ => None
  end.
Definition f_id_file i op :=
  match op with HIdFile i' v => if Nat.eqb i i' then Some v else None | _ => None end.
Definition f_si_file s i op :=
  match op with HSidFile s' i' v => if both s s' i i' then Some v else None | _ => None end.

(** The verbosity in force: (severity,id), else id, else the default. *)
Definition level_in_force (ops : list hop) (s i : nat) : Z :=
  dflt (first_of (last_of (f_si_verb s i) ops)
       (first_of (last_of (f_id_verb i) ops) (last_of f_verb ops))) 200.

(** The action: (severity,id), else id, else severity. *)
Definition action_in_force (ops : list hop) (s i : nat) : Z :=
  dflt (first_of (last_of (f_si_act s i) ops)
       (first_of (last_of (f_id_act i) ops) (last_of (f_sev_act s) ops)))
       (match s with 2%nat => 5 | 3%nat => 9 | _ => 1 end).

(** The file as documented: (severity,id), else id, else severity, else default. *)
Definition file_in_force (ops : list hop) (s i : nat) : Z :=
  dflt (first_of (last_of (f_si_file s i) ops)
       (first_of (last_of (f_id_file i) ops)
       (first_of (last_of (f_sev_file s) ops) (last_of f_file ops)))) 0.

(** The file as found: settings of 0 are passed over. *)
Definition nz (o : option Z) : option Z :=
  match o with Some 0 => None | o => o end.
Definition file_found (ops : list hop) (s i : nat) : Z :=
  dflt (first_of (nz (last_of (f_si_file s i) ops))
       (first_of (nz (last_of (f_id_file i) ops))
       (first_of (nz (last_of (f_sev_file s) ops)) (last_of f_file ops)))) 0.

(** The severity after overrides. *)
Definition severity_in_force (ops : list hop) (s i : nat) : nat :=
  dflt (first_of (last_of (f_si_ovr s i) ops) (last_of (f_sev_ovr s) ops)) s.

(** ** Counting over the events of a run *)

(** Value of a severity's (id's) count: executed messages since the last time it
    was set. *)
Definition sev_tally (k : nat) (acc : Z) (e : ev) : Z :=
  match e with
  | EExec m _ _ _ => if Nat.eqb (m_sev m) k then acc + 1 else acc
  | ESetSev k' n => if Nat.eqb k' k then Z.max 0 n else acc
  | EResetSev => if Nat.leb k 3 then 0 else acc
  | _ => acc
  end.
Definition id_tally (k : nat) (acc : Z) (e : ev) : Z :=
  match e with
  | EExec m _ _ _ => if Nat.eqb (m_id m) k then acc + 1 else acc
  | ESetId k' n => if Nat.eqb k' k then Z.max 0 n else acc
  | _ => acc
  end.

Definition is_exec (e : ev) : bool := match e with EExec _ _ _ _ => true | _ => false end.
Definition executed (tr : list ev) : Z := Z.of_nat (length (filter is_exec tr)).

Definition is_msg (op : rop) : bool :=
  match op with RMsg _ _ _ _ _ _ _ => true | _ => false end.

(** Executed messages whose action includes counting (bit 2) and not recording
    (bit 6), which fails before anything else is done. *)
Definition counted (e : ev) : bool :=
  match e with
  | EExec m _ _ _ => Z.testbit (m_act m) 2 && negb (Z.testbit (m_act m) 6)
  | _ => false
  end.
Definition n_counted (tr : list ev) : Z := Z.of_nat (length (filter counted tr)).

Fixpoint zsum (l : list Z) : Z := match l with [] => 0 | z :: l' => z + zsum l' end.

(** ** Catchers *)

(** The enabled catchers of a queue with their numbers. *)
Fixpoint live (i : nat) (q : list centry) : list (nat * catch_fn) :=
  match q with
  | [] => []
  | Catcher true f :: q' => (i, f) :: live (S i) q'
  | _ :: q' => live (S i) q'
  end.

(** What one catcher leaves is what the next one gets, but for the action of a
    message whose severity it changed while leaving it the usual action [usual]
    of the old severity. *)
Definition handed (usual : nat -> Z) (before left next : msg) : Prop :=
  m_sev next = m_sev left /\ m_id next = m_id left /\ m_body next = m_body left /\
  m_file next = m_file left /\
  (m_sev left = m_sev before \/ m_act left <> usual (m_sev before) ->
   m_act next = m_act left).

(** A message passing through a list of catchers: who is called with what, the
    message at the end, and whether it was caught. *)
Inductive passes (usual : nat -> Z)
  : list (nat * catch_fn) -> msg -> list (nat * msg) -> msg -> bool -> Prop :=
| pass_end m : passes usual [] m [] m false
| pass_caught i f L m l m1 m2 :
    f m = (l, m1, VCaught) -> handed usual m m1 m2 ->
    passes usual ((i, f) :: L) m [(i, m)] m2 true
| pass_on i f L m l m1 m2 v c m3 b :
    f m = (l, m1, v) -> v = VThrow \/ v = VUnknown -> handed usual m m1 m2 ->
    passes usual L m2 c m3 b ->
    passes usual ((i, f) :: L) m ((i, m) :: c) m3 b.

Fixpoint sees (tr : list ev) : list (nat * msg) :=
  match tr with
  | [] => []
  | ESees i m :: tr' => (i, m) :: sees tr'
  | _ :: tr' => sees tr'
  end.

(** A catcher that issues nothing itself and returns THROW or CAUGHT. *)
Definition quiet (f : catch_fn) : Prop :=
  forall m, fst (fst (f m)) = [] /\ (snd (f m) = VThrow \/ snd (f m) = VCaught).

Definition only_catchers (q : list centry) : Prop :=
  forall on, In (Other on) q -> on = false.
