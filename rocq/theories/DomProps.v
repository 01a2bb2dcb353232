(** C189-C192: names of phases, searches of phases, wait_for_state. *)
From Coq Require Import ZArith List Bool Arith Ascii String Lia.
From Verif Require Import Prelude PhaseGraphModel DomModel DomSpec DomProofs.
Import ListNotations.
Local Open Scope nat_scope.
Local Open Scope list_scope.

(** *** C189: the names *)
Theorem C189_full_name i n ss d fuel : (kd i n = NODE \/ kd i n = SCHEDULE) -> inside i n ss d -> (forall k, In k (n :: ss) -> nm i k <> ""%string) -> List.length ss + 2 <= fuel ->
  get_full_name i fuel n = Some (dotted (nm i d :: rev (map (nm i) ss) ++ [nm i n])).
Proof.
  intros [Hk|Hk] H Hn Hf; [apply full_node|apply full_schedule]; auto. intros k Hk'. apply Hn. now right.
Qed.
Print Assumptions C189_full_name.
Theorem C189_domain_name i d fuel : kd i d = DOMAIN -> 0 < fuel -> get_full_name i fuel d = Some (nm i d).
Proof.
  intros Hk Hf. destruct fuel as [|f]; [lia|]. unfold get_full_name, get_domain_name, get_schedule_name. cbn [get_domain get_schedule]. now rewrite (proj2 (isk_eq i DOMAIN d) Hk), Hk.
Qed.
Print Assumptions C189_domain_name.
Theorem C189_schedule i n ss d fuel : (kd i n = NODE \/ kd i n = SCHEDULE) -> inside i n ss d -> List.length ss + 2 <= fuel ->
  get_domain i fuel n = Some (Some d) /\
  get_schedule i fuel false n = Some (if match kd i n with SCHEDULE => true | _ => false end then Some n else hd_error ss) /\
  get_schedule i fuel true n = Some (match ss with [] => if match kd i n with SCHEDULE => true | _ => false end then Some n else None | _ => Some (last ss n) end).
Proof.
  intros Hk H Hf. split; [apply (inside_domain i n ss d H); [destruct Hk; congruence|exact Hf]|]. split.
  - unfold get_schedule. destruct Hk as [Hk|Hk]; rewrite Hk; [|reflexivity]. inversion H as [? ? Hp Hd|? p ss' ? Hp Hs H']; subst; rewrite Hp; [now rewrite (proj2 (isk_eq i DOMAIN d) Hd)|].
    rewrite (proj2 (isk_neq i DOMAIN p)) by congruence. reflexivity.
  - unfold get_schedule. rewrite (inside_climb i n ss d H) by lia. destruct ss as [|p t]; [cbn [last]; destruct Hk as [Hk|Hk]; rewrite Hk; [|reflexivity]|].
    + inversion H as [? ? Hp Hd|]; subst. rewrite Hp, (proj2 (isk_eq i DOMAIN d) Hd). reflexivity.
    + assert (G : forall x, kd i (last (p :: t) x) = SCHEDULE). { clear -H. revert n p H. induction t as [|q t IH]; intros n p H x; inversion H as [|? ? ? ? Hp Hs H']; subst; [exact Hs|]. exact (IH p q H' x). } now rewrite G.
Qed.
Print Assumptions C189_schedule.
(** The name of the schedule: of all schedules around, the outermost first; with hier only the
    outermost. *)
Theorem C189_schedule_name i n ss d fuel : (kd i n = NODE \/ kd i n = SCHEDULE) -> inside i n ss d -> (forall k, In k (n :: ss) -> nm i k <> ""%string) -> List.length ss + 2 <= fuel ->
  let all := if match kd i n with SCHEDULE => true | _ => false end then n :: ss else ss in
  get_schedule_name i fuel false n = Some (match all with [] => ""%string | _ => dotted (rev (map (nm i) all)) end) /\
  get_schedule_name i fuel true n = Some (match all with [] => ""%string | _ => nm i (last all n) end).
Proof.
  intros Hk H Hn Hf all. destruct (C189_schedule i n ss d fuel Hk H Hf) as (_ & E1 & E2). unfold get_schedule_name. rewrite E1, E2.
  assert (Top : forall m tt dd, inside i m tt dd -> forall x, List.length tt < fuel -> sched_name i fuel (last tt m) x = Some x).
  { clear. induction 1 as [m d' Hp Hd|m p tt d' Hp Hs H' IH]; intros x L.
    - cbn [last]. destruct fuel as [|f]; [lia|]. cbn [sched_name]. rewrite Hp, (proj2 (isk_neq i SCHEDULE d')) by congruence. now rewrite andb_false_r.
    - cbn in L. destruct tt as [|q tt]; [apply (IH x); cbn; lia|]. change (last (p :: q :: tt) m) with (last (q :: tt) m).
      assert (X : forall l a b (z : nat), last (z :: l) a = last (z :: l) b) by (clear; induction l as [|y l IHl]; intros; [reflexivity|apply (IHl a b y)]).
      rewrite (X tt m p q). apply IH. cbn in *. lia. }
  destruct Hk as [Hk|Hk]; unfold all; rewrite Hk.
  - destruct ss as [|p t]; [split; reflexivity|]. cbn [hd_error]. inversion H as [|? ? ? ? Hp Hs H']; subst. cbn in Hf. split.
    + rewrite (sched_name_inside i p t d H'); [reflexivity|intros k I; apply Hn; right; now right|lia|apply Hn; right; now left].
    + apply (Top n (p :: t) d H). cbn. lia.
  - split; [cbn [map rev]; apply (sched_name_inside i n ss d H); [intros k I; apply Hn; now right|lia|apply Hn; now left]|].
    destruct ss as [|p t]; [cbn [last]; apply (Top n [] d H); cbn; lia|]. change (last (n :: p :: t) n) with (last (p :: t) n). apply (Top n (p :: t) d H). cbn in *. lia.
Qed.
Print Assumptions C189_schedule_name.
(** Outside of any domain: a phase without parent has no schedule, except that a schedule is
    its own; in a schedule that is nowhere it has that one. *)
Theorem C189_orphan i n fuel : 0 < fuel -> par i n = None ->
  (forall hier, get_schedule i fuel hier n = Some (if match kd i n with SCHEDULE => true | _ => false end then Some n else None)) /\
  (forall m, par i m = Some n -> kd i m = NODE -> kd i n = SCHEDULE -> forall hier, get_schedule i (S fuel) hier m = Some (Some n)).
Proof.
  intros Hf Hp. destruct fuel as [|f]; [lia|]. split.
  - intros hier. unfold get_schedule. cbn [climb]. rewrite Hp. destruct hier; destruct (kd i n); try reflexivity; now rewrite Hp.
  - intros m Hm Km Kn hier. unfold get_schedule. cbn [climb]. rewrite Hm, (proj2 (isk_eq i SCHEDULE n) Kn), Hp.
    destruct hier; [now rewrite Kn|]. rewrite Km, (proj2 (isk_neq i DOMAIN n)) by congruence. reflexivity.
Qed.
Print Assumptions C189_orphan.
(** Two phases with the same full name have the same name in schedules and a domain of the same names. *)
Theorem C189_unique i n ss d n' ss' d' fuel s : (forall k, no_dot (nm i k)) -> (forall k, nm i k <> ""%string) ->
  (kd i n = NODE \/ kd i n = SCHEDULE) -> (kd i n' = NODE \/ kd i n' = SCHEDULE) -> inside i n ss d -> inside i n' ss' d' -> List.length ss + 2 <= fuel -> List.length ss' + 2 <= fuel ->
  get_full_name i fuel n = Some s -> get_full_name i fuel n' = Some s -> nm i n = nm i n' /\ map (nm i) ss = map (nm i) ss' /\ nm i d = nm i d'.
Proof.
  intros Hd He Hn Hn' H H' Hf Hf' E E'. rewrite (C189_full_name i n ss d) in E by auto. rewrite (C189_full_name i n' ss' d') in E' by auto. rewrite <- E' in E. apply (f_equal (fun o => match o with Some x => x | None => EmptyString end)) in E. cbv beta iota in E.
  assert (ND : forall a b c, Forall no_dot (nm i a :: rev (map (nm i) b) ++ [nm i c])).
  { intros a b c. constructor; [apply Hd|]. apply Forall_app. split; [|constructor; [apply Hd|constructor]]. apply Forall_rev, Forall_map, Forall_forall. auto. }
  apply dotted_inj in E; auto; try discriminate. injection E as E1 E2. apply app_inj_tail in E2 as [E2 E3]. split; [exact E3|]. split; [|exact E1]. apply (f_equal (@rev string)) in E2. now rewrite !rev_involutive in E2.
Qed.
Print Assumptions C189_unique.
(** "main" of the domain "uvm", and a phase in two nested schedules. *)
Definition nested : info := Info (fun n => nth n [DOMAIN; SCHEDULE; SCHEDULE] NODE) (fun n => nth n ["dom"; "outer"; "inner"] "train")%string (fun n => nth n [None; Some 0; Some 1] (Some 2)) (fun _ => None).
Example C189_example :
  (nm (inf std) 22 = "main"%string /\ inside (inf std) 22 [13] 11 /\ get_full_name (inf std) 9 22 = Some "uvm.uvm_sched.main"%string) /\
  (inside nested 3 [2; 1] 0 /\ get_full_name nested 9 3 = Some "dom.outer.inner.train"%string /\ get_schedule nested 9 true 3 = Some (Some 1) /\
   get_schedule_name nested 9 false 3 = Some "outer.inner"%string /\ get_schedule_name nested 9 true 3 = Some "outer"%string).
Proof.
  split; [split; [|split]|split; [|split; [|split; [|split]]]]; try (vm_compute; reflexivity).
  - apply in_schedule; [vm_compute; reflexivity|vm_compute; reflexivity|]. apply in_domain; vm_compute; reflexivity.
  - apply in_schedule; [reflexivity|reflexivity|]. apply in_schedule; [reflexivity|reflexivity|]. now apply in_domain.
Qed.

(** *** C190: find_by_name *)
Theorem C190_found i fuel stay succ pred name n m : find_by_name i fuel stay succ pred name n = Some (Some m) ->
  nm i m = name /\ (leads i stay n pred n m \/ (leads i stay n succ n m /\ forall k, leads i stay n pred n k -> nm i k <> name)).
Proof.
  unfold find_by_name. destruct (String.eqb_spec (nm i n) name) as [E|E]; [intros [= <-]; split; [exact E|left; apply l_here]|].
  destruct (m_find_name i fuel stay n pred name n) as [[r|]|] eqn:Ep; [|intros H|discriminate].
  - intros [= <-]. apply find_name_some in Ep as [A B]. auto.
  - apply find_name_some in H as [A B]. split; [exact A|]. right. split; [exact B|]. exact (find_name_none i _ _ _ _ _ _ Ep).
Qed.
Print Assumptions C190_found.
Theorem C190_not_found i fuel stay succ pred name n : find_by_name i fuel stay succ pred name n = Some None ->
  forall m, leads i stay n pred n m \/ leads i stay n succ n m -> nm i m <> name.
Proof.
  unfold find_by_name. destruct (String.eqb (nm i n) name); [discriminate|]. destruct (m_find_name i fuel stay n pred name n) as [[r|]|] eqn:Ep; try discriminate.
  intros H m [L|L]; [exact (find_name_none i _ _ _ _ _ _ Ep m L)|exact (find_name_none i _ _ _ _ _ _ H m L)].
Qed.
Print Assumptions C190_not_found.
(** The search ends in every graph without cycles. *)
Theorem C190_ends i h rk rk' B succ pred fuel stay name n : (forall n p, par i n = Some p -> h p < h n) -> (forall n, h n < B) ->
  (forall n m, In m (succ n) -> rk m < rk n) -> (forall n m, In m (pred n) -> rk' m < rk' n) -> B + rk n + rk' n < fuel ->
  exists r, find_by_name i fuel stay succ pred name n = Some r.
Proof.
  intros Hh Hb Hs Hp Hf. unfold find_by_name. destruct (String.eqb _ _); [eauto|]. destruct (m_find_name_ends i h rk' B pred Hh Hb Hp stay n name fuel n) as [[r|] ->]; [lia|eauto|].
  apply (m_find_name_ends i h rk B succ Hh Hb Hs). lia.
Qed.
Print Assumptions C190_ends.
(** From "main" of the domain "uvm": its own "reset", and "build" only outside of the scope. *)
Example C190_example :
  d_find_by_name 40 std true "reset" 22 = Some (Some 16) /\ d_find_by_name 40 std true "build" 22 = Some None /\ d_find_by_name 40 std false "build" 22 = Some (Some 2) /\
  leads (inf std) true 22 (Pred (gr std)) 22 16.
Proof.
  split; [vm_compute; reflexivity|]. split; [vm_compute; reflexivity|]. split; [vm_compute; reflexivity|].
  assert (H : d_find_by_name 40 std true "reset" 22 = Some (Some 16)) by (vm_compute; reflexivity). apply C190_found in H as [_ [H|[_ H]]]; [exact H|]. exfalso.
  assert (K : m_find_name (inf std) 40 true 22 (Pred (gr std)) "reset" 22 = Some (Some 16)) by (vm_compute; reflexivity). apply find_name_some in K as [K1 K2]. exact (H 16 K2 K1).
Qed.

(** *** C191: find *)
Theorem C191_found i fuel stay succ pred q n m : find i fuel stay succ pred q n = Some (FNode m) ->
  wanted i q m /\ (leads i stay n pred n m \/ leads i stay n succ n m).
Proof.
  unfold find. destruct (matches i q n); [discriminate|]. destruct (m_find i fuel stay n pred q n) as [[r|]|] eqn:Ep; [|destruct (m_find i fuel stay n succ q n) as [[r|]|] eqn:Es|]; try discriminate;
    intros [= <-]; [apply m_find_some in Ep as [A B]|apply m_find_some in Es as [A B]]; auto.
Qed.
Print Assumptions C191_found.
Theorem C191_self i fuel stay succ pred q n : wanted i q n <-> find i fuel stay succ pred q n = Some FSame.
Proof.
  rewrite <- matches_wanted. unfold find. destruct (matches i q n); [tauto|]. split; [discriminate|]. destruct (m_find i fuel stay n pred q n) as [[r|]|]; [discriminate| |discriminate].
  destruct (m_find i fuel stay n succ q n) as [[r|]|]; discriminate.
Qed.
Print Assumptions C191_self.
(** Where there is no choice between two ways, nothing is overlooked. *)
Theorem C191_not_found i fuel stay succ pred q n : no_choice i stay n pred -> no_choice i stay n succ -> find i fuel stay succ pred q n = Some FNone ->
  forall m, leads i stay n pred n m \/ leads i stay n succ n m -> ~ wanted i q m.
Proof.
  intros Np Ns. unfold find. destruct (matches i q n); [discriminate|]. destruct (m_find i fuel stay n pred q n) as [[r|]|] eqn:Ep; [discriminate| |discriminate].
  destruct (m_find i fuel stay n succ q n) as [[r|]|] eqn:Es; try discriminate. intros _ m [L|L]; [exact (m_find_none i stay n pred q fuel Np n Ep m L)|exact (m_find_none i stay n succ q fuel Ns n Es m L)].
Qed.
Print Assumptions C191_not_found.
Theorem C191_ends i h rk rk' B succ pred fuel stay q n : (forall n p, par i n = Some p -> h p < h n) -> (forall n, h n < B) ->
  (forall n m, In m (succ n) -> rk m < rk n) -> (forall n m, In m (pred n) -> rk' m < rk' n) -> B + rk n + rk' n < fuel ->
  exists r, find i fuel stay succ pred q n = Some r.
Proof.
  intros Hh Hb Hs Hp Hf. unfold find. destruct (matches i q n); [eauto|]. destruct (m_find_ends i h rk' B pred Hh Hb Hp stay n q fuel n) as [[r|] ->]; [lia|eauto|].
  destruct (m_find_ends i h rk B succ Hh Hb Hs stay n q fuel n) as [[r|] ->]; [lia|eauto|eauto].
Qed.
Print Assumptions C191_ends.
(** From "reset" of the domain "uvm" the phase "main" (IMP 16) is its node 22; "extract" (5) is
    in another scope. *)
Example C191_example :
  d_find 40 std true (QImp 16) 16 = Some (FNode 22) /\ d_find 40 std true (QImp 5) 16 = Some FNone /\ d_find 40 std false (QImp 5) 16 = Some (FNode 7).
Proof. vm_compute. repeat split. Qed.
(** The choice: from "common" the way to the domain "uvm" is not taken, so its phases are not found,
    although find_by_name finds them. *)
Example C191_limit : d_find 40 std false (QImp 16) 0 = Some FNone /\ d_find_by_name 40 std false "main" 0 = Some (Some 22) /\ leads (inf std) false 0 (Succ (gr std)) 0 22.
Proof.
  split; [vm_compute; reflexivity|]. split; [vm_compute; reflexivity|].
  assert (H : m_find_name (inf std) 40 false 0 (Succ (gr std)) "main" 0 = Some (Some 22)) by (vm_compute; reflexivity). now apply find_name_some in H as [_ H].
Qed.

(** *** C192: wait_for_state *)
(** A process returns only in a state that meets what it asked for. *)
Theorem C192_returns st0 ls l p : In (Returns p) (snd (wstep (wafter (winit st0) ls) l)) ->
  exists op st, asks p (wtrace (winit st0) ls) = Some (op, st) /\ meets op st (state_after st0 ls).
Proof.
  intros H. apply wstep_returns in H as (_ & x & op & st & E & Hh). exists op, st. rewrite asks_look, E. split; [reflexivity|]. apply holds_meets. rewrite wafter_state in Hh. exact Hh.
Qed.
Print Assumptions C192_returns.
(** After a state is set while a process waits, the process returns when it next runs, if all the
    states from then on meet what it asked for. *)
Theorem C192_not_missed st0 ls p op st v ls2 : asks p (wtrace (winit st0) ls) = Some (op, st) ->
  (forall l1 l2, ls2 = l1 ++ l2 -> meets op st (state_after v l1)) -> In (Sched p) ls2 ->
  exists e, In e (wtrace (wafter (winit st0) (ls ++ [Set_state v])) ls2) /\ returns p e.
Proof.
  intros Ha Hm Hs. rewrite asks_look in Ha. rewrite wafter_app. cbn [wafter]. set (s := wafter (winit st0) ls) in *.
  destruct (look s p) as [[x op' st' md]|] eqn:El; [|discriminate]. cbn in Ha. injection Ha as -> ->.
  apply (released_returns p op st ls2); [|intros l1 l2 E; apply holds_meets; rewrite wstep_state; eapply Hm; eauto|exact Hs].
  exists x. rewrite wstep_look. cbn [step_look]. now rewrite El.
Qed.
Print Assumptions C192_not_missed.
(** A call when no state was set since the last return of a process waits for the next set_state,
    even if the state is the one asked for. *)
Theorem C192_late st0 ls p op st ls2 : quiet (wtrace (winit st0) ls) -> asks p (wtrace (winit st0) ls) = None -> forallb (fun l => negb (sets l)) ls2 = true ->
  forall e, In e (wtrace (wafter (winit st0) (ls ++ [Call p op st])) ls2) -> ~ returns p e.
Proof.
  intros Hq Ha Hs. rewrite wafter_app. cbn [wafter]. apply blocked_stays; [|exact Hs]. exists p, op, st. rewrite wstep_look. cbn [step_look]. rewrite Nat.eqb_refl.
  rewrite asks_look in Ha. destruct (look (wafter (winit st0) ls) p); [discriminate|]. now rewrite (quiet_ev st0 ls Hq).
Qed.
Print Assumptions C192_late.
(** With states that are single bits, UVM_EQ and UVM_NE mean equality. *)
Theorem C192_single_bits a b : (0 <= a)%Z -> (0 <= b)%Z -> (meets UVM_EQ (2 ^ a) (2 ^ b) <-> a = b) /\ (meets UVM_NE (2 ^ a) (2 ^ b) <-> a <> b).
Proof.
  intros Ha Hb. assert (G : (exists k, (0 <= k)%Z /\ Z.testbit (2 ^ a) k = true /\ Z.testbit (2 ^ b) k = true) <-> a = b).
  { split.
    - intros (k & Hk & A & B). rewrite Z.pow2_bits_eqb in A, B by assumption. apply Z.eqb_eq in A, B. congruence.
    - intros ->. exists b. rewrite Z.pow2_bits_true by assumption. auto. }
  cbn [meets]. split; [exact G|]. split; intros H E; apply H, G, E.
Qed.
Print Assumptions C192_single_bits.
(** Two processes wait for READY_TO_END (32) and DONE (256); a third one comes too late for DONE. *)
Example C192_example : let tr := wtrace (winit 1) [Call 1 UVM_GTE 32; Call 2 UVM_EQ 256; Set_state 16; Sched 1; Set_state 64; Sched 2; Sched 1; Set_state 256; Sched 2; Call 3 UVM_EQ 256; Sched 3] in
  map snd tr = [[]; []; []; []; []; []; [Returns 1]; []; [Returns 2]; []; []] /\ asks 3 tr = Some (UVM_EQ, 256%Z).
Proof. vm_compute. auto. Qed.
