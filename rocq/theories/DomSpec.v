(** Specifications for the queries on phases, the domains and wait_for_state. *)
From Coq Require Import ZArith List Bool Arith Ascii String.
From Verif Require Import Prelude DomModel.
Import ListNotations.
Local Open Scope nat_scope.
Local Open Scope list_scope.

Section Spec.
Context (i : info).

(** [inside n ss d]: n lies in the schedules ss, the innermost first, and these in the domain d *)
Inductive inside : nat -> list nat -> nat -> Prop :=
| in_domain n d : par i n = Some d -> kd i d = DOMAIN -> inside n [] d
| in_schedule n p ss d : par i n = Some p -> kd i p = SCHEDULE -> inside p ss d -> inside n (p :: ss) d.

(** The domain of a phase, if it has one *)
Inductive domain_is : nat -> option nat -> Prop :=
| dom_self n : kd i n = DOMAIN -> domain_is n (Some n)
| dom_none n : kd i n <> DOMAIN -> par i n = None -> domain_is n None
| dom_up n p r : kd i n <> DOMAIN -> par i n = Some p -> domain_is p r -> domain_is n r.
(** The schedule of a phase, if it has one: a schedule is its own, a phase node has the parent to
    which it was added unless this is a domain *)
Definition schedule_is (n : nat) (r : option nat) : Prop :=
  (kd i n = SCHEDULE /\ r = Some n) \/
  (exists p, kd i n = NODE /\ par i n = Some p /\ kd i p <> DOMAIN /\ r = Some p) \/
  (kd i n <> SCHEDULE /\ (kd i n = NODE -> forall p, par i n = Some p -> kd i p = DOMAIN) /\ r = None).
(** Two phases in one scope *)
Definition together (n m : nat) : Prop :=
  (exists r, schedule_is n r /\ schedule_is m r) \/ (exists r, domain_is n r /\ domain_is m r).
(** [leads stay orig nbr n m]: a way from n to m by neighbours, all in the scope of orig if [stay] *)
Inductive leads (stay : bool) (orig : nat) (nbr : nat -> list nat) : nat -> nat -> Prop :=
| l_here n : leads stay orig nbr n n
| l_next n k m : In k (nbr n) -> (stay = true -> together k orig) -> leads stay orig nbr k m -> leads stay orig nbr n m.
(** What find() looks for *)
Definition wanted (q : asked) (n : nat) : Prop := match q with QNode m => n = m | QImp p => im i n = Some p end.
(** Nowhere is there a choice between two neighbours in scope *)
Definition no_choice (stay : bool) (orig : nat) (nbr : nat -> list nat) : Prop :=
  forall n k l, In k (nbr n) -> In l (nbr n) -> (stay = true -> together k orig /\ together l orig) -> k = l.
End Spec.

(** Names with dots between *)
Fixpoint dotted (l : list string) : string :=
  match l with [] => "" | [x] => x | x :: t => String.append x (String.append "." (dotted t)) end.
Fixpoint no_dot (s : string) : Prop := match s with EmptyString => True | String a t => a <> "."%char /\ no_dot t end.

(** *** wait_for_state *)
Definition meets (op : cmp) (st m : Z) : Prop :=
  match op with
  | UVM_EQ => exists k, (0 <= k)%Z /\ Z.testbit st k = true /\ Z.testbit m k = true
  | UVM_NE => ~ exists k, (0 <= k)%Z /\ Z.testbit st k = true /\ Z.testbit m k = true
  | UVM_LT => (m < st)%Z
  | UVM_LTE => (m <= st)%Z
  | UVM_GT => (m > st)%Z
  | UVM_GTE => (m >= st)%Z
  end.
(** The last state that was set *)
Definition state_after (st : Z) (ls : list wlab) : Z := fold_left (fun st l => match l with Set_state st => st | _ => st end) ls st.
Definition sets (l : wlab) : bool := match l with Set_state _ => true | _ => false end.
(** The calls and what they answer, in order *)
Fixpoint wtrace (s : wstate) (ls : list wlab) : list (wlab * list wout) :=
  match ls with [] => [] | l :: t => (l, snd (wstep s l)) :: wtrace (fst (wstep s l)) t end.
Fixpoint wafter (s : wstate) (ls : list wlab) : wstate := match ls with [] => s | l :: t => wafter (fst (wstep s l)) t end.
Definition returns (p : nat) (e : wlab * list wout) : Prop := In (Returns p) (snd e).
Definition returnsb (p : nat) (e : wlab * list wout) : bool := existsb (fun o => match o with Returns q => Nat.eqb q p end) (snd e).
(** What process p is waiting for *)
Definition asks (p : nat) (tr : list (wlab * list wout)) : option (cmp * Z) :=
  fold_left (fun a e => if returnsb p e then None
                        else match fst e, a with Call q op st, None => if Nat.eqb q p then Some (op, st) else None | _, _ => a end) tr None.
(** No state was set since the last return of a process *)
Definition quiet (tr : list (wlab * list wout)) : Prop :=
  exists t1 t2, tr = t1 ++ t2 /\ (forall e, In e t2 -> sets (fst e) = false) /\ (t1 = [] \/ exists t0 p o, t1 = t0 ++ [(Sched p, o)] /\ In (Returns p) o).

(** *** The phases of the domains *)
(** Each is the only successor of the one before it, and this its only predecessor. *)
Fixpoint chain (succ pred : nat -> list nat) (l : list nat) : Prop :=
  match l with a :: ((b :: _) as t) => succ a = [b] /\ pred b = [a] /\ chain succ pred t | _ => True end.
(** The run-time phases: which IMP, and its name *)
Definition run_time : list (nat * string) :=
  [(9, "pre_reset"); (10, "reset"); (11, "post_reset"); (12, "pre_configure"); (13, "configure"); (14, "post_configure");
   (15, "pre_main"); (16, "main"); (17, "post_main"); (18, "pre_shutdown"); (19, "shutdown"); (20, "post_shutdown")]%string.
(** [whole i succ pred d k e ps de]: the domain d is: its schedule k with the phases ps, which are the
    run-time phases, the end e of the schedule and the end de of the domain. *)
Definition whole (i : info) (succ pred : nat -> list nat) (d k e : nat) (ps : list nat) (de : nat) : Prop :=
  kd i k = SCHEDULE /\ nm i k = "uvm_sched"%string /\ par i k = Some d /\ kd i e = TERMINAL /\ kd i de = TERMINAL /\
  Forall2 (fun n p => kd i n = NODE /\ par i n = Some k /\ im i n = Some (fst p) /\ nm i n = snd p) ps run_time /\
  chain succ pred (d :: k :: ps ++ [e; de]).
(** The calls of a test: [session fuel start s made set]: from [start], the domains [made] were
    created (with names other than "uvm_sched") and those in [set] given to components, in the order
    of the first time. *)
Inductive session (fuel : nat) (start : ds) : ds -> list nat -> list nat -> Prop :=
| s_start d : kd (inf start) d = DOMAIN -> d <> 0 -> d < cnt start -> session fuel start start [d] [d]
| s_new s s' made set name : session fuel start s made set -> name <> "uvm_sched"%string -> dstep fuel s (NewDomain name) = Some s' -> session fuel start s' (made ++ [cnt s]) set
| s_first s s' made set d : session fuel start s made set -> In d made -> ~ In d set -> dstep fuel s (SetDomain d) = Some s' -> session fuel start s' made (set ++ [d])
| s_again s s' made set d : session fuel start s made set -> In d made -> In d set -> dstep fuel s (SetDomain d) = Some s' -> session fuel start s' made set.
