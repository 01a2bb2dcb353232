(** C193: the run-time phases of the domains that are given to components. *)
From Coq Require Import ZArith List Bool Arith Ascii String Lia.
From Verif Require Import Prelude PhaseGraphModel DomModel DomSpec DomProofs DomProps DomSetProofs.
Import ListNotations.
Local Open Scope nat_scope.
Local Open Scope list_scope.

Lemma new_domain s name : cnt (new_sched s DOMAIN name) = cnt s + 2 /\ kd (inf (new_sched s DOMAIN name)) (cnt s) = DOMAIN /\ (forall n, n < cnt s -> kd (inf (new_sched s DOMAIN name)) n = kd (inf s) n).
Proof.
  unfold new_sched, info_add. cbn [cnt inf kd]. split; [lia|]. split.
  - rewrite upd_neq by lia. now rewrite upd_eq.
  - intros n Hn. rewrite !upd_neq by lia. reflexivity.
Qed.
Lemma session_inv f s made set : session (30 + f) std s made set -> exists att, Inv s att /\ map fst att = set /\ forall d, In d made -> 10 < d /\ d < cnt s /\ kd (inf s) d = DOMAIN.
Proof.
  induction 1 as [d H1 H2 H3|s s' made set name _ (att & V & Ha & Hm) Hn E|s s' made set d _ (att & V & Ha & Hm) Hd Hs E|s s' made set d _ (att & V & Ha & Hm) Hd Hs E].
  - assert (C : cnt std = 27) by (vm_compute; reflexivity). rewrite C in *.
    assert (K : forall d, d <> 0 -> d < 27 -> kd (inf std) d = DOMAIN -> d = 11).
    { intros x X1 X2. destruct x as [|x]; [lia|]. do 10 (destruct x as [|x]; [vm_compute; discriminate|]). destruct x as [|x]; [reflexivity|]. do 15 (destruct x as [|x]; [vm_compute; discriminate|]). lia. }
    pose proof (K d H2 H3 H1) as ->. exists [(11, 13)]. split; [exact std_inv|]. split; [reflexivity|]. intros x [<-|[]]. split; [lia|]. split; [lia|exact H1].
  - cbn [dstep] in E. assert (E' : s' = new_sched s DOMAIN name) by congruence. clear E. subst s'. exists att. split; [now apply new_domain_inv|]. split; [exact Ha|]. destruct (new_domain s name) as (C & K & Ko). rewrite C. intros d Hd. apply in_app_or in Hd as [Hd|[<-|[]]].
    + apply Hm in Hd as (X1 & X2 & X3). rewrite Ko by lia. split; [lia|]. split; [lia|exact X3].
    + pose proof (v_cnt _ _ V). split; [lia|]. split; [lia|exact K].
  - destruct (Hm d Hd) as (D1 & D2 & D3). rewrite <- Ha in Hs. destruct (set_first s att d f V D1 D2 D3 Hs) as (s1 & E1 & V1 & C1 & K1). unfold dstep in E. assert (E' : s' = s1) by congruence. subst s'. exists (att ++ [(d, cnt s)]). split; [exact V1|]. split; [now rewrite map_app, Ha|].
    intros x Hx. destruct (Hm x Hx) as (X1 & X2 & X3). rewrite K1 by exact X2. split; [lia|]. split; [lia|exact X3].
  - unfold dstep in E. rewrite <- Ha in Hs. apply in_map_iff in Hs as ([a k] & Ea & Hk). cbn [fst] in Ea. subst a. rewrite (set_again s att d k f V Hk) in E. assert (E' : s' = s) by congruence. subst s'. exists att. auto.
Qed.
Lemma in_fst (att : list (nat * nat)) d : In d (map fst att) -> exists k, In (d, k) att.
Proof. intros H. apply in_map_iff in H as ([a k] & E & Hk). cbn [fst] in E. subst a. eauto. Qed.

(** A domain that is given to a component has all run-time phases, in order: after
    "start_of_simulation" and before "extract". *)
Theorem C193_phases f s made set d : session (30 + f) std s made set -> In d set ->
  exists k e ps de, whole (inf s) (Succ (gr s)) (Pred (gr s)) d k e ps de /\
    exists sos ext, nm (inf s) sos = "start_of_simulation"%string /\ nm (inf s) ext = "extract"%string /\ par (inf s) sos = Some COMMON /\ par (inf s) ext = Some COMMON /\ Pred (gr s) d = [sos] /\ Succ (gr s) de = [ext].
Proof.
  intros H Hd. apply session_inv in H as (att & V & <- & _). apply in_fst in Hd as (k & Hk). exists k, (S k), (map (fun j => k + (2 + j)) (seq 0 12)), (S d). split; [now apply (inv_whole s att)|].
  destruct (v_att _ _ V d k Hk) as (_ & _ & _ & _ & _ & H6 & _ & _ & H9). destruct (v_com _ _ V 5) as (_ & _ & _ & N5 & P5 & _); [lia|]. destruct (v_com _ _ V 7) as (_ & _ & _ & N7 & P7 & _); [lia|]. exists 5, 7. auto 10.
Qed.
Print Assumptions C193_phases.
(** The domains run in parallel to "run": after "start_of_simulation" come "run" and the domains that
    were given to components, each once; "extract" waits for "run" and the end of each of them. The
    other common phases follow one another. *)
Theorem C193_parallel f s made set : session (30 + f) std s made set -> NoDup set /\ exists bld con eoe sos run ext chk rep fin,
  map (nm (inf s)) [bld; con; eoe; sos; run; ext; chk; rep; fin] = ["build"; "connect"; "end_of_elaboration"; "start_of_simulation"; "run"; "extract"; "check"; "report"; "final"]%string /\
  (forall n, In n [bld; con; eoe; sos; run; ext; chk; rep; fin] -> par (inf s) n = Some COMMON /\ kd (inf s) n = NODE) /\
  chain (Succ (gr s)) (Pred (gr s)) [COMMON; bld; con; eoe; sos] /\ Succ (gr s) sos = run :: set /\ Pred (gr s) run = [sos] /\ Succ (gr s) run = [ext] /\ Pred (gr s) ext = run :: map (endn s) set /\
  chain (Succ (gr s)) (Pred (gr s)) [ext; chk; rep; fin; endn s COMMON] /\ Pred (gr s) COMMON = [] /\ Succ (gr s) (endn s COMMON) = [].
Proof.
  intros H. apply session_inv in H as (att & V & <- & _). split; [apply (v_nd _ _ V)|]. exists 2, 3, 4, 5, 6, 7, 8, 9, 10.
  assert (G : forall n, n <= 10 -> Succ (gr s) n = (if n =? 5 then 6 :: map fst att else nth n c_succ []) /\ Pred (gr s) n = (if n =? 7 then 6 :: map (fun a => S (fst a)) att else nth n c_pred []) /\
    kd (inf s) n = (if n =? 0 then DOMAIN else if n =? 1 then TERMINAL else NODE) /\ nm (inf s) n = nth n c_nm ""%string /\ par (inf s) n = (if n =? 0 then None else Some 0)).
  { intros n Hn. destruct (v_com _ _ V n Hn) as (A & B & C & D & E & _). auto. }
  split; [|split].
  - cbn [map]. repeat match goal with |- context [nm (inf s) ?n] => rewrite (proj1 (proj2 (proj2 (proj2 (G n ltac:(lia)))))) end. reflexivity.
  - intros n Hn. assert (Hb : 2 <= n <= 10) by (cbn in Hn; lia). destruct (G n ltac:(lia)) as (_ & _ & -> & _ & ->). destruct (Nat.eqb_spec n 0); [lia|]. destruct (Nat.eqb_spec n 1); [lia|]. auto.
  - unfold COMMON. rewrite (v_end0 _ _ V). cbn [chain].
    repeat match goal with |- context [Succ (gr s) ?n] => rewrite (proj1 (G n ltac:(lia))) end. repeat match goal with |- context [Pred (gr s) ?n] => rewrite (proj1 (proj2 (G n ltac:(lia)))) end. cbn [Nat.eqb nth c_succ c_pred].
    assert (X : map (fun a => S (fst a)) att = map (endn s) (map fst att)).
    { rewrite map_map. apply map_ext_in. intros [d k] Hk. destruct (v_att _ _ V d k Hk) as (X1 & X2 & X3 & _). destruct (v_dom _ _ V d X1 X2 X3) as (E & _). cbn [fst]. now rewrite E. }
    rewrite X. auto 30.
Qed.
Print Assumptions C193_parallel.
(** One phase of each kind in a domain: two phases with one IMP are the same, or in two domains. *)
Theorem C193_once f s made set d n m p : session (30 + f) std s made set -> n < cnt s -> m < cnt s -> im (inf s) n = Some p -> im (inf s) m = Some p ->
  domain_is (inf s) n (Some d) -> domain_is (inf s) m (Some d) -> n = m.
Proof.
  intros H Hn Hm In_ Im Dn Dm. apply session_inv in H as (att & V & _ & _). apply (inv_phases s att) in In_; auto. apply (inv_phases s att) in Im; auto.
  destruct In_ as [[X1 X2]|(a & k & j & X1 & X2 & X3 & X4)], Im as [[Y1 Y2]|(b & l & i & Y1 & Y2 & Y3 & Y4)]; try lia.
  subst n m. assert (j = i) by lia. subst i. pose proof (domain_fun _ _ _ _ Dn (inv_domain s att a k j V X1 X2)) as E1. pose proof (domain_fun _ _ _ _ Dm (inv_domain s att b l j V Y1 Y2)) as E2. assert (a = b) by congruence. subst b. now rewrite (inv_fun s att a k l V X1 Y1).
Qed.
Print Assumptions C193_once.
(** set_domain comes to an end, and does nothing for a domain that was given to a component before. *)
Theorem C193_again f s made set d : session (30 + f) std s made set -> In d made ->
  (exists s', dstep (30 + f) s (SetDomain d) = Some s') /\ (In d set -> dstep (30 + f) s (SetDomain d) = Some s).
Proof.
  intros H Hd. apply session_inv in H as (att & V & <- & Hm). assert (A : In d (map fst att) -> dstep (30 + f) s (SetDomain d) = Some s).
  { intros X. apply in_fst in X as (k & Hk). exact (set_again s att d k f V Hk). }
  split; [|exact A]. destruct (in_dec Nat.eq_dec d (map fst att)) as [X|X]; [exists s; exact (A X)|]. destruct (Hm d Hd) as (D1 & D2 & D3). destruct (set_first s att d f V D1 D2 D3 X) as (s1 & E1 & _). exists s1. exact E1.
Qed.
Print Assumptions C193_again.
(** A domain that was not given to a component has no phases, and no phase is before or after it. *)
Theorem C193_empty f s made set d : session (30 + f) std s made set -> In d made -> ~ In d set ->
  Pred (gr s) d = [] /\ chain (Succ (gr s)) (Pred (gr s)) [d; endn s d] /\ Succ (gr s) (endn s d) = [] /\ (forall n p, n < cnt s -> im (inf s) n = Some p -> ~ domain_is (inf s) n (Some d)).
Proof.
  intros H Hd Hs. apply session_inv in H as (att & V & <- & Hm). destruct (Hm d Hd) as (D1 & D2 & D3). destruct (v_dom _ _ V d D1 D2 D3) as (-> & _). destruct (v_free _ _ V d D1 D2 D3 Hs) as (F1 & F2 & F3 & F4).
  split; [exact F2|]. split; [cbn [chain]; auto|]. split; [exact F3|]. intros n p Hn Hp Hdom. apply (inv_phases s att) in Hp; auto. destruct Hp as [[X1 X2]|(a & k & j & X1 & X2 & X3 & X4)].
  - assert (X : domain_is (inf s) n (Some 0)).
    { destruct (v_com _ _ V n) as (_ & _ & K & _ & P & _); [lia|]. destruct (v_com _ _ V 0) as (_ & _ & K0 & _); [lia|]. destruct (Nat.eqb_spec n 0); [lia|]. destruct (Nat.eqb_spec n 1); [lia|]. apply dom_up with 0; [congruence|exact P|]. now apply dom_self. }
    pose proof (domain_fun _ _ _ _ Hdom X) as E. assert (d = 0) by congruence. lia.
  - subst n. pose proof (domain_fun _ _ _ _ Hdom (inv_domain s att a k j V X1 X2)) as E. assert (a = d) by congruence. subst a. apply Hs, in_map_iff. exists (d, k). auto.
Qed.
Print Assumptions C193_empty.

(** A test that creates two domains and gives one of them to components twice *)
Definition made2 : ds := match druns 40 std [NewDomain "a"; NewDomain "b"; SetDomain 29; SetDomain 11; SetDomain 29] with Some s => s | None => no_phase end.
Example C193_example : session 40 std made2 [11; 27; 29] [11; 29] /\
  (Succ (gr made2) 5 = [6; 11; 29] /\ Pred (gr made2) 7 = [6; 12; 30]) /\ get_full_name (inf made2) 9 40 = Some "b.uvm_sched.main"%string /\ get_full_name (inf made2) 9 22 = Some "uvm.uvm_sched.main"%string /\ Succ (gr made2) 27 = [28].
Proof.
  split; [|vm_compute; repeat split].
  assert (A0 : session (30 + 10) std std [11] [11]) by (apply s_start; [vm_compute; reflexivity|lia|vm_compute; lia]).
  assert (C0 : cnt std = 27) by (vm_compute; reflexivity).
  assert (A1 : session (30 + 10) std (new_sched std DOMAIN "a") [11; 27] [11]) by (rewrite <- C0 at 2; apply (s_new _ _ std _ [11] [11] "a" A0); [discriminate|reflexivity]).
  assert (C1 : cnt (new_sched std DOMAIN "a") = 29) by (destruct (new_domain std "a") as (-> & _); rewrite C0; reflexivity).
  assert (A2 : session (30 + 10) std (new_sched (new_sched std DOMAIN "a") DOMAIN "b") [11; 27; 29] [11]) by (rewrite <- C1 at 2; apply (s_new _ _ _ _ [11; 27] [11] "b" A1); [discriminate|reflexivity]).
  destruct (C193_again 10 _ _ _ 29 A2) as [(s3 & E3) _]; [cbn; auto|].
  assert (A3 : session (30 + 10) std s3 [11; 27; 29] [11; 29]) by (apply (s_first _ _ _ s3 _ [11] 29 A2); [cbn; auto|cbn; lia|exact E3]).
  destruct (C193_again 10 _ _ _ 11 A3) as [_ E4]; [cbn; auto|]. destruct (C193_again 10 _ _ _ 29 A3) as [_ E5]; [cbn; auto|]. specialize (E4 ltac:(cbn; auto)). specialize (E5 ltac:(cbn; auto)). change (30 + 10) with 40 in *.
  assert (E : made2 = s3).
  { unfold made2, druns. change (dstep 40 std (NewDomain "a")) with (Some (new_sched std DOMAIN "a")). cbv iota beta. change (dstep 40 (new_sched std DOMAIN "a") (NewDomain "b")) with (Some (new_sched (new_sched std DOMAIN "a") DOMAIN "b")). cbv iota beta. now rewrite E3, E4, E5. }
  rewrite E. exact A3.
Qed.
(** A domain called "uvm_sched" gets no phases: the search for a schedule of this name finds the
    domain. If "common" itself is given to a component, run-time phases come after "final". *)
Example C193_limit :
  match druns 40 std [NewDomain "uvm_sched"; SetDomain 27] with Some s => cnt s = 29 /\ Succ (gr s) 5 = [6; 11] /\ Succ (gr s) 27 = [28] | None => False end /\
  match druns 40 std [SetDomain 0] with Some s => Succ (gr s) 10 = [27] /\ kd (inf s) 27 = SCHEDULE /\ Succ (gr s) 27 = [29] /\ nm (inf s) 29 = "pre_reset"%string | None => False end.
Proof. vm_compute. repeat split. Qed.
