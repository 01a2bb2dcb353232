From Coq Require Import ZArith List Bool Arith Lia.
From Verif Require Import MemModel McbModel McbSpec.
Import ListNotations.
Open Scope Z_scope.

Lemma turned_change ch it : turned ch (i_view (change_item ch it)).
Proof.
  unfold turned, change_item. cbn. repeat split; [intros l ->; reflexivity|intros ->; reflexivity].
Qed.
Lemma turned_fun ch v w : turned ch v -> turned ch w -> v = w.
Proof.
  destruct v as [a b c], w as [a' b' c']. unfold turned. cbn. intros (-> & -> & A & B) (-> & -> & A' & B').
  f_equal. destruct (c_new ch) as [l|]; [now rewrite (A l), (A' l)|now rewrite B, B'].
Qed.
Lemma passes_fun l v s w chs : passes l v s w chs -> forall s' w' chs', passes l v s' w' chs' -> s' = s /\ w' = w /\ chs' = chs.
Proof.
  induction 1 as [|x c l v ch v1 seen v' chs E T P IH]; intros s' w' chs' Q; inversion Q as [|? ? ? ? ch2 v2 ? ? ? E2 T2 P2]; subst; [auto|].
  rewrite E in E2. injection E2 as <-. rewrite (turned_fun _ _ _ T2 T) in *.
  apply IH in P2. destruct P2 as (-> & -> & ->). auto.
Qed.
Lemma passes_app l1 l2 v s1 v1 c1 s2 v2 c2 : passes l1 v s1 v1 c1 -> passes l2 v1 s2 v2 c2 -> passes (l1 ++ l2) v (s1 ++ s2) v2 (c1 ++ c2).
Proof. induction 1; intros Q; [exact Q|]. cbn [app]. econstructor; eauto. Qed.
Lemma passes_exist l : Forall (fun x => forall v, eff (snd x) v <> None) l -> forall v, exists s w chs, passes l v s w chs.
Proof.
  induction 1 as [|[w c] l F _ IH]; intros v; [do 3 eexists; constructor|]. cbn [snd] in F.
  destruct (eff c v) as [ch|] eqn:E; [|now destruct (F v)].
  destruct (IH (i_view (change_item ch (Item v None)))) as (s & w' & chs & P).
  do 3 eexists. econstructor; [exact E|apply turned_change|exact P].
Qed.

(** The list of the caller *)
Definition own (it : item) (chs : list change) (it' : item) : Prop :=
  (forall l, i_own it = Some l -> i_own it' = Some l) /\
  (i_own it = None ->
     (i_own it' = None /\ Forall (fun ch => c_new ch = None) chs /\ leaves chs (v_vals (i_view it)) (v_vals (i_view it'))) \/
     (exists l, i_own it' = Some l /\ Exists (fun ch => c_new ch <> None) chs /\ leaves chs (v_vals (i_view it)) l)).
Lemma own_nil it s : own it [] (with_st it s).
Proof. split; [auto|]. intros N. left. repeat split; [exact N|constructor|constructor]. Qed.
Lemma own_one it ch : own it [ch] (change_item ch it).
Proof.
  unfold own, change_item. cbn. split; [intros l ->; reflexivity|]. intros ->.
  destruct (c_new ch) as [l|] eqn:E.
  - right. exists (c_inplace ch). split; [reflexivity|]. split; [constructor; congruence|]. eapply leaves_gone; eauto.
  - left. split; [reflexivity|]. split; [auto|]. apply leaves_kept; [exact E|constructor].
Qed.
Lemma leaves_kept_app c1 : forall l l1, Forall (fun ch => c_new ch = None) c1 -> leaves c1 l l1 ->
  forall c2 l2, leaves c2 l1 l2 -> leaves (c1 ++ c2) l l2.
Proof.
  induction c1 as [|ch c1 IH]; intros l l1 F L c2 l2 L2; inversion L; subst; [exact L2| |]; cbn [app].
  - apply leaves_kept; [assumption|]. inversion F; subst. eapply IH; eauto.
  - inversion F; subst. congruence.
Qed.
Lemma leaves_gone_app c1 : forall l l1, Exists (fun ch => c_new ch <> None) c1 -> leaves c1 l l1 ->
  forall c2, leaves (c1 ++ c2) l l1.
Proof.
  induction c1 as [|ch c1 IH]; intros l l1 F L c2; [inversion F|]. inversion L; subst; cbn [app].
  - apply leaves_kept; [assumption|]. inversion F; subst; [congruence|]. eauto.
  - eapply leaves_gone; eauto.
Qed.
Lemma own_trans a c1 b c2 d : own a c1 b -> own b c2 d -> own a (c1 ++ c2) d.
Proof.
  intros (A1 & A2) (B1 & B2). split; [auto|]. intros N. destruct (A2 N) as [(N' & F & L)|(l & S1 & F & L)].
  - destruct (B2 N') as [(N2 & F2 & L2)|(l & S2 & F2 & L2)].
    + left. split; [exact N2|]. split; [now apply Forall_app|]. eapply leaves_kept_app; eauto.
    + right. exists l. split; [exact S2|]. split; [apply Exists_app; auto|]. eapply leaves_kept_app; eauto.
  - right. exists l. split; [auto|]. split; [apply Exists_app; auto|]. now apply leaves_gone_app.
Qed.
Lemma own_stat a c1 b s : own a c1 b -> own a c1 (with_st b s).
Proof. intros H. rewrite <- (app_nil_r c1). eapply own_trans; [exact H|apply own_nil]. Qed.
Lemma leaves_fun chs l a : leaves chs l a -> forall b, leaves chs l b -> b = a.
Proof. induction 1; intros b Q; inversion Q; subst; auto; congruence. Qed.

Lemma call_pass w k m c it : fine c -> exists seen it' chs,
  passes [(w, c)] (i_view it) seen (i_view it') chs /\ own it chs it' /\ call true w k m c it = (calls k m seen, Ok it').
Proof.
  intros (A & F). unfold call. rewrite A. cbn [andb orb negb].
  destruct (eff c (i_view it)) as [ch|] eqn:E; [|now destruct (F (i_view it))].
  exists [(w, i_view it)], (change_item ch it), [ch]. split; [econstructor; [exact E|apply turned_change|constructor]|].
  split; [apply own_one|reflexivity].
Qed.
Lemma cbs_pass k m l : Forall (fun c : nat * (kind -> meth -> code) => fine (snd c k m)) l -> forall it, exists seen it' chs,
  passes (map (fun c => (WCb (fst c), snd c k m)) l) (i_view it) seen (i_view it') chs /\ own it chs it' /\
  call_cbs true k m l it = (calls k m seen, Ok it').
Proof.
  induction 1 as [|[c h] l F _ IH]; intros it.
  - exists [], it, []. split; [constructor|]. split; [|reflexivity]. split; [auto|]. intros N. left. repeat split; [exact N|constructor|constructor].
  - cbn [call_cbs map fst snd] in *. destruct (call_pass (WCb c) k m _ it F) as (s1 & i1 & c1 & P1 & O1 & ->).
    destruct (IH i1) as (s2 & i2 & c2 & P2 & O2 & E2). cbn [andthen]. rewrite E2.
    exists (s1 ++ s2), i2, (c1 ++ c2). split; [exact (passes_app _ _ _ _ _ _ _ _ _ P1 P2)|].
    split; [eapply own_trans; eauto|]. unfold calls. now rewrite map_app.
Qed.
(** Callbacks called without await: those which are coroutines do not run. *)
Lemma cbs_loose k m l : Forall (fun c : nat * (kind -> meth -> code) => forall v, eff (snd c k m) v <> None) l -> forall it, exists seen it' chs,
  passes (map (fun c => (WCb (fst c), snd c k m)) (at_once k m l)) (i_view it) seen (i_view it') chs /\ own it chs it' /\
  call_cbs false k m l it = (calls k m seen, Ok it').
Proof.
  induction 1 as [|[c h] l F _ IH]; intros it.
  - exists [], it, []. split; [constructor|]. split; [|reflexivity]. split; [auto|]. intros N. left. repeat split; [exact N|constructor|constructor].
  - cbn [call_cbs at_once filter fst snd] in *. unfold call. destruct (is_async (h k m)) eqn:A; cbn [andb orb negb].
    + cbn [andthen]. destruct (IH it) as (s2 & i2 & c2 & P2 & O2 & ->). exists s2, i2, c2. auto.
    + destruct (eff (h k m) (i_view it)) as [ch|] eqn:E; [|now destruct (F (i_view it))]. cbn [andthen].
      destruct (IH (change_item ch it)) as (s2 & i2 & c2 & P2 & O2 & ->).
      exists ((WCb c, i_view it) :: s2), i2, (ch :: c2). cbn [map fst snd]. split; [econstructor; [exact E|apply turned_change|exact P2]|].
      split; [|reflexivity]. change (ch :: c2) with ([ch] ++ c2). eapply own_trans; [apply own_one|exact O2].
Qed.

(** ** The check *)
Lemma check_front c fd p off n : to_front c p -> off < m_size c ->
  (fd = false -> m_unmapped c = true -> m_map_given c = true) ->
  exists errs, check c fd p off n = Some (errs, MFront, true) /\ (fd = true -> errs = []).
Proof.
  intros (L & P) O U. unfold check, check_access. cbn [m_size mapped m_hdl m_dflt_back m_local m_unmapped]. rewrite (proj2 (Z.leb_gt _ _) O), L.
  destruct fd; cbn [negb Nat.ltb Nat.leb].
  - exists []. split; [|reflexivity]. destruct p; [reflexivity|now rewrite P|]. destruct P as [-> | ->]; [reflexivity|]. now destruct (m_dflt_back c).
  - assert (Q : forall q, q = MFront -> exists errs, match q with
       | MBack => Some ([], MBack, false)
       | _ => if m_unmapped c then (if m_map_given c then Some ([EUnmapped], q, true) else None)
              else if (1 <? n)%nat then
                     if m_lbytes c * 8 <? m_bits c then Some ([ENarrow], q, true)
                     else if m_size c <? off + Z.of_nat n then Some ([EBurstEnd], q, true) else Some ([], q, true)
                   else Some ([], q, true)
       end = Some (errs, MFront, true) /\ (false = true -> errs = [])).
    { intros q ->. destruct (m_unmapped c); [rewrite U by reflexivity; eexists; split; [reflexivity|discriminate]|]. destruct (1 <? n)%nat; [|eexists; split; [reflexivity|discriminate]].
      destruct (_ <? _); [eexists; split; [reflexivity|discriminate]|]. destruct (_ <? _); eexists; (split; [reflexivity|discriminate]). }
    apply Q. destruct p; [reflexivity|now rewrite P|]. destruct P as [-> | ->]; [reflexivity|]. now destruct (m_dflt_back c).
Qed.
Lemma check_back c fd p off n : to_back c p -> off < m_size c -> check c fd p off n = Some ([], MBack, false).
Proof.
  intros (H & P) O. unfold check, check_access. cbn [m_size mapped m_hdl m_dflt_back]. rewrite (proj2 (Z.leb_gt _ _) O), H.
  destruct fd, p; try contradiction; try rewrite P; reflexivity.
Qed.

(** ** Accesses *)
Lemma goes_transfer move k c p root fd x off n it : goes k c p root fd x -> off < m_size c ->
  exists errs q info, check c (match fd with Some _ => true | None => false end) p off n = Some (errs, q, info) /\
    transfer move k (m_rw c) fd root q info it = do_move move k x (with_st it NotOk).
Proof.
  intros G O. destruct G as [F U|s F|F|fd F W].
  - destruct (check_front c false p off n F O (fun _ => U)) as (errs & E & _). do 3 eexists. split; [exact E|reflexivity].
  - destruct (check_front c true p off n F O ltac:(discriminate)) as (errs & E & _). do 3 eexists. split; [exact E|reflexivity].
  - destruct (check_front c true p off n F O ltac:(discriminate)) as (errs & E & _). do 3 eexists. split; [exact E|reflexivity].
  - exists [], MBack, false. split; [now apply check_back|]. cbn [transfer]. destruct k; [|reflexivity]. now rewrite W.
Qed.
Lemma with_view it s : i_view (with_st it s) = restat (i_view it) s.
Proof. reflexivity. Qed.
Lemma own_restat a s c1 b : own (with_st a s) c1 b -> own a c1 b.
Proof. unfold own. cbn. auto. Qed.

Lemma pre_pass k M it : pre_fine k M -> exists seen it' chs,
  passes (pre_list k M) (i_view it) seen (i_view it') chs /\ own it chs it' /\
  forall (K : item -> list ev * outc item),
  andthen (call true WHook k Pre (m_hook M k Pre) it) (fun it =>
    andthen (call_cbs (match k with Wr => true | Rd => false end) k Pre (m_cbs M) it) K) =
  andthen (calls k Pre seen, Ok it') K.
Proof.
  intros (F & G). destruct (call_pass WHook k Pre _ it F) as (s1 & i1 & c1 & P1 & O1 & E1).
  assert (X : exists s2 i2 c2, passes (tl (pre_list k M)) (i_view i1) s2 (i_view i2) c2 /\ own i1 c2 i2 /\
    call_cbs (match k with Wr => true | Rd => false end) k Pre (m_cbs M) i1 = (calls k Pre s2, Ok i2)).
  { destruct k; [now apply (cbs_pass Wr Pre)|now apply (cbs_loose Rd Pre)]. }
  destruct X as (s2 & i2 & c2 & P2 & O2 & E2). exists (s1 ++ s2), i2, (c1 ++ c2).
  split; [exact (passes_app _ _ _ _ _ _ _ _ _ P1 P2)|]. split; [eapply own_trans; eauto|].
  intros K. rewrite E1. cbn [andthen]. rewrite E2. cbn [andthen]. destruct (K i2) as [t o]. unfold calls. rewrite map_app.
  now rewrite app_assoc.
Qed.
Lemma post_pass k M it : post_fine k M -> exists seen it' chs,
  passes ((WHook, m_hook M k Post) :: cbs_of M k Post) (i_view it) seen (i_view it') chs /\ own it chs it' /\
  andthen (call true WHook k Post (m_hook M k Post) it) (fun it => call_cbs true k Post (m_cbs M) it) = (calls k Post seen, Ok it').
Proof.
  intros (F & G). destruct (call_pass WHook k Post _ it F) as (s1 & i1 & c1 & P1 & O1 & E1).
  destruct (cbs_pass k Post (m_cbs M) G i1) as (s2 & i2 & c2 & P2 & O2 & E2). exists (s1 ++ s2), i2, (c1 ++ c2).
  split; [exact (passes_app _ _ _ _ _ _ _ _ _ P1 P2)|]. split; [eapply own_trans; eauto|].
  rewrite E1. cbn [andthen]. rewrite E2. unfold calls. now rewrite map_app.
Qed.
Lemma is_ok_true s : is_ok s = true <-> s = IsOk.
Proof. destruct s; cbn; split; congruence. Qed.

Lemma access_full move k c fd root M p x it : pre_fine k M -> post_fine k M -> goes k c p root fd x ->
  v_off (i_view it) < m_size c ->
  let a := access move k c fd root M p it in
  exists seen v1 chs, passes (pre_list k M) (restat (i_view it) IsOk) seen v1 chs /\
  (v_st v1 <> IsOk -> r_tr a = calls k Pre seen /\ exists it', r_out a = Ok it' /\ i_view it' = v1 /\ own it chs it') /\
  (v_st v1 = IsOk ->
    (move k x (restat v1 NotOk) = None -> r_tr a = calls k Pre seen ++ [Moved k x (restat v1 NotOk)] /\ r_out a = Exc UserExc) /\
    (forall ch, move k x (restat v1 NotOk) = Some ch ->
      exists v2 seen2 v3 chs2, turned ch v2 /\ passes ((WHook, m_hook M k Post) :: cbs_of M k Post) v2 seen2 v3 chs2 /\
      r_tr a = calls k Pre seen ++ Moved k x (restat v1 NotOk) :: calls k Post seen2 /\
      exists it', r_out a = Ok it' /\ i_view it' = v3 /\ own it (chs ++ ch :: chs2) it')).
Proof.
  intros F G T O a. destruct (pre_pass k M (with_st it IsOk) F) as (seen & i1 & chs & P & OW & E).
  destruct (goes_transfer move k c p root fd x _ (length (v_vals (i_view it))) i1 T O) as (errs & q & info & EC & ET).
  exists seen, (i_view i1), chs. split; [exact P|]. subst a. unfold access. rewrite EC. unfold body. rewrite E. cbn [andthen].
  apply own_restat in OW. split.
  - intros N. destruct (is_ok (v_st (i_view i1))) eqn:K; [apply is_ok_true in K; contradiction|]. cbn. rewrite app_nil_r.
    split; [reflexivity|]. exists i1. auto.
  - intros K. apply is_ok_true in K. rewrite K. cbn [negb]. rewrite ET. unfold do_move. rewrite with_view. split.
    + intros ->. cbn. auto.
    + intros ch ->. cbn [andthen]. destruct (post_pass k M (change_item ch (with_st i1 NotOk)) G) as (s2 & i2 & c2 & P2 & O2 & E2).
      rewrite E2. exists (i_view (change_item ch (with_st i1 NotOk))), s2, (i_view i2), c2.
      split; [apply turned_change|]. split; [exact P2|]. cbn [r_tr r_out app]. split; [reflexivity|]. exists i2. split; [reflexivity|].
      split; [reflexivity|]. apply (own_trans _ _ _ _ _ OW).
      change (ch :: c2) with ([ch] ++ c2). eapply own_trans; [|exact O2]. apply own_restat with (s := NotOk). apply own_one.
Qed.
Lemma own_list it chs it' : own it chs it' -> i_own it = None ->
  leaves chs (v_vals (i_view it)) (match i_own it' with Some l => l | None => v_vals (i_view it') end).
Proof. intros (_ & H) N. destruct (H N) as [(-> & _ & L)|(l & -> & _ & L)]; exact L. Qed.

(** The caller's list does not matter for what happens. *)
Definition like (x y : list ev * outc item) : Prop :=
  fst x = fst y /\
  match snd x, snd y with Ok i, Ok j => i_view i = i_view j | Exc e, Exc e' => e = e' | _, _ => False end.
Lemma like_then x y f g : like x y -> (forall i j, i_view i = i_view j -> like (f i) (g j)) -> like (andthen x f) (andthen y g).
Proof.
  destruct x as [t [i|e|]], y as [t' [j|e'|]]; unfold like; cbn; intros (-> & H) K; try contradiction; [|auto].
  specialize (K i j H). unfold like in K. destruct (f i) as [u o], (g j) as [u' o']. cbn in *. destruct K as (-> & K). auto.
Qed.
Lemma like_call aw w k m c i j : i_view i = i_view j -> like (call aw w k m c i) (call aw w k m c j).
Proof.
  intros H. unfold like, call. rewrite H. destruct (is_async c && negb aw); [cbn; auto|]. destruct (eff c (i_view j)); [|cbn; auto].
  destruct (is_async c || negb aw); cbn; auto.
Qed.
Lemma like_cbs aw k m l : forall i j, i_view i = i_view j -> like (call_cbs aw k m l i) (call_cbs aw k m l j).
Proof.
  induction l as [|[c h] l IH]; intros i j H; [split; [reflexivity|exact H]|]. cbn [call_cbs]. apply like_then; [now apply like_call|exact IH].
Qed.
Lemma like_move move k x i j : i_view i = i_view j -> like (do_move move k x i) (do_move move k x j).
Proof. intros H. unfold like, do_move. rewrite H. destruct (move k x (i_view j)); cbn; auto. Qed.
Lemma like_body move k rw fd root M p info i j : i_view i = i_view j ->
  like (body move k rw fd root M p info i) (body move k rw fd root M p info j).
Proof.
  intros H. assert (W : forall i j s, i_view i = i_view j -> i_view (with_st i s) = i_view (with_st j s)) by (intros a b s E; cbn; now rewrite E).
  unfold body. apply like_then; [apply like_call; auto|]. intros i1 j1 H1. apply like_then; [now apply like_cbs|].
  intros i2 j2 H2. rewrite H2. destruct (is_ok _); [|split; [reflexivity|exact H2]]. cbn [negb]. apply like_then.
  - unfold transfer. destruct p, k; try (destruct info; [destruct fd; apply like_move; auto|split; reflexivity]); try (apply like_move; auto).
    all: destruct rw; [apply like_move; auto|split; [reflexivity|cbn [snd]; auto]].
  - intros i3 j3 H3. apply like_then; [now apply like_call|]. intros; now apply like_cbs.
Qed.

(** ** Sequencers *)
Lemma set1_eq {A} (f : nat -> A) i v : set1 f i v i = v.
Proof. unfold set1. now rewrite Nat.eqb_refl. Qed.
Lemma set1_neq {A} (f : nat -> A) i j v : j <> i -> set1 f i v j = f j.
Proof. intros H. unfold set1. now rewrite (proj2 (Nat.eqb_neq j i) H). Qed.
Lemma frun_app s l1 l2 : frun s (l1 ++ l2) =
  let '(s1, o1) := frun s l1 in let '(s2, o2) := frun s1 l2 in (s2, o1 ++ o2).
Proof.
  revert s. induction l1 as [|l l1 IH]; intros s; cbn [frun app]; [now destruct (frun s l2)|].
  destruct (fstep s l) as [s1 o]. rewrite IH. destruct (frun s1 l1) as [s2 o2]. destruct (frun s2 l2). now rewrite app_assoc.
Qed.
Lemma state_of ls : let s := fst (frun finit ls) in
  (forall m, f_root s m = last_root m (rev ls)) /\ (forall f, has f (rev ls) (f_seqr s f)).
Proof.
  induction ls as [|l ls IH] using rev_ind; [split; [reflexivity|intros; constructor]|].
  cbn zeta in *. rewrite rev_app_distr, frun_app. destruct (frun finit ls) as [s o]. cbn [fst rev app] in *.
  destruct IH as (R & H). cbn [frun].
  destruct l as [m q|f q|f m]; cbn [fstep fst f_root f_seqr last_root]; split.
  - intros n. destruct (Nat.eqb_spec n m) as [->|N]; [apply set1_eq|]. rewrite set1_neq by exact N. apply R.
  - intros f. apply has_other; [discriminate|discriminate|apply H].
  - exact R.
  - intros g. destruct (Nat.eq_dec g f) as [->|N]; [rewrite set1_eq; constructor|]. rewrite set1_neq by exact N.
    apply has_other; [discriminate|congruence|apply H].
  - exact R.
  - intros g. destruct (Nat.eq_dec g f) as [->|N].
    + rewrite set1_eq. specialize (H f). unfold fd_via. destruct (f_seqr s f); [now constructor|]. rewrite R. now constructor.
    + rewrite set1_neq by exact N. apply has_other; [congruence|discriminate|apply H].
Qed.
Lemma has_fun f h a : has f h a -> forall b, has f h b -> b = a.
Proof.
  induction 1 as [|h s|h m s P IH|h m P IH|h l s N1 N2 P IH]; intros b Q; inversion Q; subst; auto.
  all: try congruence.
  all: try (match goal with H : forall q, _ <> _ |- _ => exfalso; eapply H; reflexivity end).
  all: try (match goal with H : has _ _ _, I : forall b, has _ _ b -> _ |- _ => apply I in H; congruence end).
Qed.
