(** Hooks, callbacks and user-defined front doors of memory accesses. *)
From Coq Require Import ZArith List Bool Arith Lia.
From Verif Require Import MemModel McbModel McbSpec McbProofs.
Import ListNotations.
Open Scope Z_scope.

(** ** C198 *)
Theorem C198_write : forall move c fd root M p x off vs, pre_fine Wr M -> post_fine Wr M ->
  goes Wr c p root fd x -> off < m_size c ->
  let a := burst_write move c fd root M p off vs in
  exists seen v1 chs, passes (pre_list Wr M) (View off vs IsOk) seen v1 chs /\
  (v_st v1 <> IsOk -> r_tr a = calls Wr Pre seen /\ exists l, r_out a = Ok (v_st v1, l) /\ leaves chs vs l) /\
  (v_st v1 = IsOk ->
    (move Wr x (restat v1 NotOk) = None ->
       r_tr a = calls Wr Pre seen ++ [Moved Wr x (restat v1 NotOk)] /\ r_out a = Exc UserExc) /\
    (forall ch, move Wr x (restat v1 NotOk) = Some ch ->
      exists v2 seen2 v3 chs2, turned ch v2 /\
      passes ((WHook, m_hook M Wr Post) :: cbs_of M Wr Post) v2 seen2 v3 chs2 /\
      r_tr a = calls Wr Pre seen ++ Moved Wr x (restat v1 NotOk) :: calls Wr Post seen2 /\
      exists l, r_out a = Ok (v_st v3, l) /\ leaves (chs ++ ch :: chs2) vs l)).
Proof.
  intros move c fd root M p x off vs F G T O a.
  destruct (access_full move Wr c fd root M p x (Item (View off vs NotOk) None) F G T O) as (seen & v1 & chs & P & A & B).
  exists seen, v1, chs. split; [exact P|]. subst a. unfold burst_write, result. cbn [r_tr r_out]. split.
  - intros N. destruct (A N) as (-> & it' & -> & <- & OW). split; [reflexivity|]. eexists. split; [reflexivity|].
    exact (own_list _ _ _ OW eq_refl).
  - intros N. destruct (B N) as (B1 & B2). split.
    + intros E. destruct (B1 E) as (-> & ->). auto.
    + intros ch E. destruct (B2 ch E) as (v2 & s2 & v3 & c2 & TU & P2 & -> & it' & -> & <- & OW).
      exists v2, s2, (i_view it'), c2. split; [exact TU|]. split; [exact P2|]. split; [reflexivity|].
      eexists. split; [reflexivity|]. exact (own_list _ _ _ OW eq_refl).
Qed.
Print Assumptions C198_write.
(** write() is burst_write() of one value, of which the caller has no list. *)
Theorem C198_single : forall move c fd root M p off v,
  let a := write move c fd root M p off v in let b := burst_write move c fd root M p off [v] in
  r_errs a = r_errs b /\ r_tr a = r_tr b /\
  match r_out b with Ok (s, _) => r_out a = Ok s | Exc e => r_out a = Exc e | Hang => False end.
Proof.
  intros. subst a b. unfold write, burst_write, result, access. cbn [i_view v_off v_vals].
  destruct (check _ _ _ _ _) as [[[errs q] info]|]; [|cbn; auto].
  assert (L := like_body move Wr (m_rw c) fd root M q info (Item (View off [v] NotOk) (Some [])) (Item (View off [v] NotOk) None) eq_refl).
  unfold like in L. destruct (body _ _ _ _ _ _ _ _ _) as [t o], (body _ _ _ _ _ _ _ _ _) as [t' o']. cbn in *. destruct L as (-> & L).
  split; [reflexivity|]. split; [reflexivity|]. destruct o as [i|e|], o' as [j|e'|]; try contradiction; cbn; congruence.
Qed.
Print Assumptions C198_single.
(** The memory is not writable: nothing moves, the status is OK for the code that runs
    afterwards. *)
Theorem C198_readonly : forall move c fd root M p off vs, pre_fine Wr M -> post_fine Wr M ->
  to_back c p -> m_rw c = false -> off < m_size c ->
  let a := burst_write move c fd root M p off vs in
  moves (r_tr a) = [] /\
  exists seen v1 chs, passes (pre_list Wr M) (View off vs IsOk) seen v1 chs /\
  (v_st v1 <> IsOk -> exists l, r_out a = Ok (v_st v1, l)) /\
  (v_st v1 = IsOk -> exists seen2 v3 chs2,
     passes ((WHook, m_hook M Wr Post) :: cbs_of M Wr Post) v1 seen2 v3 chs2 /\
     r_tr a = calls Wr Pre seen ++ calls Wr Post seen2 /\ exists l, r_out a = Ok (v_st v3, l)).
Proof.
  intros move c fd root M p off vs F G T W O a.
  assert (NM : forall k m s, moves (calls k m s) = []) by (intros k m; induction s; auto).
  assert (NA : forall t u, moves (t ++ u) = moves t ++ moves u) by (intros; apply flat_map_app).
  destruct (pre_pass Wr M (with_st (Item (View off vs NotOk) None) IsOk) F) as (seen & i1 & chs & P & OW & E).
  subst a. unfold burst_write, result, access. cbn [i_view v_off v_vals]. rewrite (check_back c _ p off (length vs) T O). unfold body.
  rewrite E. cbn [andthen]. destruct (is_ok (v_st (i_view i1))) eqn:K; cbn [negb].
  - apply is_ok_true in K. cbn [transfer]. rewrite W. cbn [andthen app].
    destruct (post_pass Wr M (with_st (with_st i1 NotOk) IsOk) G) as (s2 & i2 & c2 & P2 & O2 & E2). rewrite E2. cbn [r_tr r_out].
    split; [now rewrite NA, !NM|]. exists seen, (i_view i1), chs. split; [exact P|]. split; [congruence|]. intros _.
    exists s2, (i_view i2), c2. split; [|split; [reflexivity|eauto]].
    replace (i_view i1) with (i_view (with_st (with_st i1 NotOk) IsOk)); [exact P2|]. cbn. rewrite <- K. now destruct (i_view i1).
  - cbn [r_tr r_out]. rewrite app_nil_r. split; [apply NM|]. exists seen, (i_view i1), chs. split; [exact P|]. split; [eauto|].
    intros N. rewrite N in K. discriminate.
Qed.
Print Assumptions C198_readonly.
Theorem C198_read : forall move c fd root M p x off, pre_fine Rd M -> post_fine Rd M ->
  goes Rd c p root fd x -> off < m_size c ->
  let a := read move c fd root M p off in
  let gives v := match v_vals v with [] => r_out a = Exc IndexErr | z :: _ => r_out a = Ok (z, v_st v) end in
  exists seen v1 chs, passes (pre_list Rd M) (View off [0] IsOk) seen v1 chs /\
  (v_st v1 <> IsOk -> r_tr a = calls Rd Pre seen /\ gives v1) /\
  (v_st v1 = IsOk ->
    (move Rd x (restat v1 NotOk) = None ->
       r_tr a = calls Rd Pre seen ++ [Moved Rd x (restat v1 NotOk)] /\ r_out a = Exc UserExc) /\
    (forall ch, move Rd x (restat v1 NotOk) = Some ch ->
      exists v2 seen2 v3 chs2, turned ch v2 /\
      passes ((WHook, m_hook M Rd Post) :: cbs_of M Rd Post) v2 seen2 v3 chs2 /\
      r_tr a = calls Rd Pre seen ++ Moved Rd x (restat v1 NotOk) :: calls Rd Post seen2 /\ gives v3)).
Proof.
  intros move c fd root M p x off F G T O a gives.
  destruct (access_full move Rd c fd root M p x (Item (View off [0] NotOk) (Some [])) F G T O) as (seen & v1 & chs & P & A & B).
  exists seen, v1, chs. split; [exact P|]. subst gives a. unfold read, result. cbn [r_tr r_out]. split.
  - intros N. destruct (A N) as (-> & it' & -> & <- & OW). split; [reflexivity|]. now destruct (v_vals (i_view it')).
  - intros N. destruct (B N) as (B1 & B2). split.
    + intros E. destruct (B1 E) as (-> & ->). auto.
    + intros ch E. destruct (B2 ch E) as (v2 & s2 & v3 & c2 & TU & P2 & -> & it' & -> & <- & OW).
      exists v2, s2, (i_view it'), c2. split; [exact TU|]. split; [exact P2|]. split; [reflexivity|]. now destruct (v_vals (i_view it')).
Qed.
Print Assumptions C198_read.

(** ** C199: callbacks of reads. A callback whose post_read is a plain function, as the
    inherited one, ends every read that gets that far by an exception. *)
Theorem C199_post_read : forall move c fd root M p x off a0 n h b0, pre_fine Rd M -> fine (m_hook M Rd Post) ->
  m_cbs M = a0 ++ (n, h) :: b0 -> Forall (fun d : nat * (kind -> meth -> code) => fine (snd d Rd Post)) a0 -> plain (h Rd Post) ->
  goes Rd c p root fd x -> off < m_size c -> (forall v, move Rd x v <> None) ->
  let a := read move c fd root M p off in
  exists seen v1 chs, passes (pre_list Rd M) (View off [0] IsOk) seen v1 chs /\
  (v_st v1 = IsOk -> r_out a = Exc TypeErr /\ exists v2 seen2 v3 chs2,
     passes ((WHook, m_hook M Rd Post) :: map (fun d => (WCb (fst d), snd d Rd Post)) (a0 ++ [(n, h)])) v2 seen2 v3 chs2 /\
     r_tr a = calls Rd Pre seen ++ Moved Rd x (restat v1 NotOk) :: calls Rd Post seen2).
Proof.
  intros move c fd root M p x off a0 n h b0 F FH EM FA (PA & PE) T O MV a.
  destruct (pre_pass Rd M (with_st (Item (View off [0] NotOk) (Some [])) IsOk) F) as (seen & i1 & chs & P & OW & E).
  destruct (goes_transfer move Rd c p root fd x off 1 i1 T O) as (errs & q & info & EC & ET).
  exists seen, (i_view i1), chs. split; [exact P|]. intros K. apply is_ok_true in K.
  subst a. unfold read, result, access. cbn [i_view v_off v_vals length]. rewrite EC. unfold body. rewrite E. cbn [andthen].
  rewrite K. cbn [negb]. rewrite ET. unfold do_move. rewrite with_view.
  destruct (move Rd x (restat (i_view i1) NotOk)) as [ch|] eqn:EV; [|now destruct (MV (restat (i_view i1) NotOk))]. cbn [andthen].
  set (i2 := change_item ch (with_st i1 NotOk)).
  destruct (call_pass WHook Rd Post _ i2 FH) as (s1 & i3 & c1 & P1 & O1 & E1). rewrite E1. cbn [andthen]. rewrite EM.
  assert (X : exists s4 v4 c4, passes (map (fun d => (WCb (fst d), snd d Rd Post)) (a0 ++ [(n, h)])) (i_view i3) s4 v4 c4 /\
    call_cbs true Rd Post (a0 ++ (n, h) :: b0) i3 = (calls Rd Post s4, Exc TypeErr)).
  { clear - FA PA PE. revert i3. induction FA as [|[m g] l FG _ IH]; intros it; cbn [app call_cbs map fst snd] in *.
    - unfold call. rewrite PA. cbn [andb orb negb]. destruct (eff (h Rd Post) (i_view it)) as [ch|] eqn:E; [|now destruct (PE (i_view it))].
      do 3 eexists. split; [econstructor; [exact E|apply (turned_change ch it)|constructor]|reflexivity].
    - destruct (call_pass (WCb m) Rd Post _ it FG) as (s1 & i1 & c1 & P1 & O1 & ->). cbn [andthen].
      destruct (IH i1) as (s4 & v4 & c4 & P4 & ->). exists (s1 ++ s4), v4, (c1 ++ c4).
      split; [exact (passes_app _ _ _ _ _ _ _ _ _ P1 P4)|]. unfold calls. now rewrite map_app. }
  destruct X as (s4 & v4 & c4 & P4 & ->). cbn [r_tr r_out app]. split; [reflexivity|].
  exists (i_view i2), (s1 ++ s4), v4, (c1 ++ c4). split; [exact (passes_app _ _ _ _ _ _ _ _ _ P1 P4)|].
  unfold calls. now rewrite map_app.
Qed.
Print Assumptions C199_post_read.
(** A callback whose pre_read is a coroutine, as the inherited one, never runs before a read,
    whatever else is there. *)
Theorem C199_pre_read : forall move c fd root M p off n v, 
  (forall h, In (n, h) (m_cbs M) -> is_async (h Rd Pre) = true) ->
  ~ In (Called (WCb n) Rd Pre v) (r_tr (read move c fd root M p off)) /\
  ~ In (Called (WCb n) Rd Pre v) (r_tr (burst_read move c fd root M p off)).
Proof.
  intros move c fd root M p off n v H.
  assert (AT : forall x f, ~ In (Called (WCb n) Rd Pre v) (fst x) -> (forall i, ~ In (Called (WCb n) Rd Pre v) (fst (f i))) ->
    ~ In (Called (WCb n) Rd Pre v) (fst (@andthen item item x f))).
  { intros [t [i|e|]] f A B; cbn; auto. specialize (B i). destruct (f i). cbn in *. rewrite in_app_iff. tauto. }
  assert (CH : forall aw m co i, ~ In (Called (WCb n) Rd Pre v) (fst (call aw WHook Rd m co i))).
  { intros aw m co i. unfold call. destruct (_ && _); cbn; [auto|]. intros [X|[]]; discriminate. }
  assert (CP : forall l i, ~ In (Called (WCb n) Rd Pre v) (fst (call_cbs true Rd Post l i))).
  { induction l as [|[d h] l IH]; intros i; cbn [call_cbs]; [intros []|]. apply AT; [|exact IH].
    unfold call. destruct (_ && _); cbn; [auto|]. intros [X|[]]; discriminate. }
  assert (CR : forall i, ~ In (Called (WCb n) Rd Pre v) (fst (call_cbs false Rd Pre (m_cbs M) i))).
  { revert H. induction (m_cbs M) as [|[d h] l IH]; intros H i; cbn [call_cbs]; [intros []|]. apply AT; [|apply IH; intros; apply H; now right].
    unfold call. destruct (Nat.eq_dec d n) as [->|N].
    - rewrite (H h) by now left. cbn. auto.
    - destruct (_ && _); cbn; [auto|]. intros [X|[]]; congruence. }
  assert (BO : forall q info i, ~ In (Called (WCb n) Rd Pre v) (fst (body move Rd (m_rw c) fd root M q info i))).
  { intros q info i. unfold body. apply AT; [apply CH|]. intros i1. apply AT; [apply CR|]. intros i2. destruct (negb _); [intros []|].
    apply AT; [|intros i3; apply AT; [apply CH|intros; apply CP]].
    unfold transfer, do_move. destruct q; [destruct info; [destruct fd|]| |]; cbn; try tauto; intros [X|[]]; discriminate. }
  unfold read, burst_read, result, access. cbn [i_view v_off v_vals]. split.
  - destruct (check _ _ _ _ _) as [[[errs q] info]|]; [|cbn; auto].
    specialize (BO q info (Item (View off [0] NotOk) (Some []))). destruct (body _ _ _ _ _ _ _ _ _). exact BO.
  - destruct (check _ _ _ _ _) as [[[errs q] info]|]; [|cbn; auto].
    specialize (BO q info (Item (View off [] NotOk) None)). destruct (body _ _ _ _ _ _ _ _ _). exact BO.
Qed.
Print Assumptions C199_pre_read.

(** ** C200: the user-defined front door *)
Definition through_door (k : kind) (fd : option (option nat)) (root : option nat) (t : list ev) : Prop :=
  moves t = [] \/ exists x v, moves t = [(k, x, v)] /\
    match x with
    | ViaBus => fd = None
    | ViaFd q => (exists s, fd = Some (Some s) /\ q = Some s) \/ (fd = Some None /\ q = root)
    | ViaBack => True
    end.
Lemma body_door move k rw fd root M q info i : through_door k fd root (fst (body move k rw fd root M q info i)).
Proof.
  assert (NC : forall aw w m co i, moves (fst (call aw w k m co i)) = []).
  { intros. unfold call. destruct (_ && _); reflexivity. }
  assert (NA : forall t u, moves (t ++ u) = moves t ++ moves u) by (intros; apply flat_map_app).
  assert (AT : forall x f, moves (fst x) = [] -> (forall i, through_door k fd root (fst (f i))) -> through_door k fd root (fst (@andthen item item x f))).
  { intros [t [j|e|]] f A B; cbn [andthen fst] in *; [|now left|now left]. specialize (B j). destruct (f j) as [t2 o]. cbn [andthen fst] in *. unfold through_door. now rewrite NA, A. }
  assert (AN : forall x f, moves (fst x) = [] -> (forall i, moves (fst (f i)) = []) -> moves (fst (@andthen item item x f)) = []).
  { intros [t [j|e|]] f A B; cbn [andthen fst] in *; auto. specialize (B j). destruct (f j). cbn [andthen fst] in *. now rewrite NA, A, B. }
  assert (AP : forall x f, through_door k fd root (fst x) -> (forall i, moves (fst (f i)) = []) -> through_door k fd root (fst (@andthen item item x f))).
  { intros [t [j|e|]] f A B; cbn [andthen fst] in *; auto. specialize (B j). destruct (f j). cbn [andthen fst] in *. unfold through_door. now rewrite NA, B, app_nil_r. }
  assert (NB : forall aw m l i, moves (fst (call_cbs aw k m l i)) = []).
  { induction l as [|[d h] l IH]; intros j; cbn [call_cbs]; [reflexivity|]. apply AN; [apply NC|exact IH]. }
  unfold body. apply AT; [apply NC|]. intros i1. apply AT; [apply NB|]. intros i2. destruct (negb _); [now left|].
  apply AP; [|intros i3; apply AN; [apply NC|intros; apply NB]].
  unfold transfer, do_move. destruct q.
  - destruct info; [|now left]. destruct fd as [[s|]|]; right; do 2 eexists; (split; [reflexivity|]); cbn; eauto.
  - destruct k; [destruct rw; [|now left]|]; right; do 2 eexists; (split; [reflexivity|]); exact Logic.I.
  - destruct k; [destruct rw; [|now left]|]; right; do 2 eexists; (split; [reflexivity|]); exact Logic.I.
Qed.
Theorem C200_door : forall move c fd root M p off v vs,
  through_door Wr fd root (r_tr (write move c fd root M p off v)) /\
  through_door Wr fd root (r_tr (burst_write move c fd root M p off vs)) /\
  through_door Rd fd root (r_tr (read move c fd root M p off)) /\
  through_door Rd fd root (r_tr (burst_read move c fd root M p off)).
Proof.
  intros. unfold write, burst_write, read, burst_read, result, access. cbn [r_tr].
  repeat split; (destruct (check _ _ _ _ _) as [[[errs q] info]|]; [|now left]);
    match goal with |- context [body ?a ?b ?c0 ?d ?e ?f ?g ?h ?i] =>
      assert (B := body_door a b c0 d e f g h i); destruct (body a b c0 d e f g h i); exact B end.
Qed.
Print Assumptions C200_door.
(** No error of a mapped or unmapped memory, however long the burst. *)
Theorem C200_limits : forall move c s root M p off v vs, to_front c p -> off < m_size c ->
  r_errs (write move c (Some s) root M p off v) = [] /\ r_errs (burst_write move c (Some s) root M p off vs) = [] /\
  r_errs (read move c (Some s) root M p off) = [] /\ r_errs (burst_read move c (Some s) root M p off) = [].
Proof.
  intros move c s root M p off v vs T O. unfold write, burst_write, read, burst_read, result, access. cbn [r_errs i_view v_off v_vals].
  repeat split.
  all: match goal with |- context [check ?a ?b ?c0 ?d ?n] => destruct (check_front a b c0 d n T O ltac:(discriminate)) as (errs & -> & E); rewrite (E eq_refl) end.
  all: destruct (body _ _ _ _ _ _ _ _ _); reflexivity.
Qed.
Print Assumptions C200_limits.
(** Without one: an unmapped memory reached by the front door is an error when a map was given,
    which does not stop the access; when none was given the access raises, and nothing ran. *)
Theorem C200_unmapped : forall move c root M p off v vs, to_front c p -> off < m_size c -> m_unmapped c = true ->
  (m_map_given c = true ->
   r_errs (write move c None root M p off v) = [EUnmapped] /\ r_errs (burst_write move c None root M p off vs) = [EUnmapped] /\
   r_errs (read move c None root M p off) = [EUnmapped] /\ r_errs (burst_read move c None root M p off) = [EUnmapped]) /\
  (m_map_given c = false ->
   write move c None root M p off v = Res [] [] (Exc AttrErr) /\ burst_write move c None root M p off vs = Res [] [] (Exc AttrErr) /\
   read move c None root M p off = Res [] [] (Exc AttrErr) /\ burst_read move c None root M p off = Res [] [] (Exc AttrErr)).
Proof.
  intros move c root M p off v vs T O U.
  assert (X : forall n, check c false p off n = if m_map_given c then Some ([EUnmapped], MFront, true) else None).
  { intros n. destruct T as (L & P). unfold check, check_access. rewrite (proj2 (Z.leb_gt _ _) O), L, U. cbn [negb].
    destruct p; [reflexivity|now rewrite P|]. destruct P as [-> | ->]; [reflexivity|]. now destruct (m_dflt_back c). }
  unfold write, burst_write, read, burst_read, result, access. cbn [r_errs i_view v_off v_vals].
  split; intros G; repeat split; rewrite X, G; try reflexivity; destruct (body _ _ _ _ _ _ _ _ _); reflexivity.
Qed.
Print Assumptions C200_unmapped.
(** The sequencer it runs on *)
Theorem C200_sequencer : forall ls f m, exists q,
  snd (frun finit (ls ++ [LStart f m])) = snd (frun finit ls) ++ [(f, q)] /\
  has f (LStart f m :: rev ls) q /\ forall q', has f (LStart f m :: rev ls) q' -> q' = q.
Proof.
  intros ls f m. destruct (state_of (ls ++ [LStart f m])) as (_ & H). specialize (H f). rewrite rev_app_distr in H. cbn [rev app] in H.
  exists (f_seqr (fst (frun finit (ls ++ [LStart f m]))) f). split; [|split; [exact H|now apply has_fun]].
  rewrite frun_app. destruct (frun finit ls) as [s o]. cbn. now rewrite set1_eq.
Qed.
Print Assumptions C200_sequencer.
(** Once it runs on a sequencer it stays there, whatever the map and its sequencer, until the
    user assigns another. *)
Theorem C200_stays : forall ls f m s ls2 m2,
  snd (frun finit (ls ++ [LStart f m])) = snd (frun finit ls) ++ [(f, Some s)] ->
  (forall q, ~ In (LAssign f q) ls2) ->
  let h := ls ++ [LStart f m] ++ ls2 in
  snd (frun finit (h ++ [LStart f m2])) = snd (frun finit h) ++ [(f, Some s)].
Proof.
  intros ls f m s ls2 m2 E N h. destruct (C200_sequencer ls f m) as (q & E1 & H & _). rewrite E in E1. apply app_inv_head in E1. injection E1 as <-.
  assert (K : has f (rev h) (Some s)).
  { subst h. rewrite app_assoc, rev_app_distr, rev_app_distr. cbn [rev app]. clear E. induction ls2 as [|l ls2 IH] using rev_ind; [exact H|].
    rewrite rev_app_distr. cbn [rev app]. assert (N' : forall q, ~ In (LAssign f q) ls2) by (intros q I; apply (N q); apply in_app_iff; now left).
    specialize (IH N'). destruct l as [a b|g b|g b].
    - apply has_other; [discriminate|discriminate|exact IH].
    - apply has_other; [discriminate| |exact IH]. intros q X. injection X as -> ->. apply (N q). apply in_app_iff. right. now left.
    - destruct (Nat.eq_dec g f) as [->|G]; [now constructor|]. apply has_other; [congruence|discriminate|exact IH]. }
  destruct (C200_sequencer h f m2) as (q & E2 & _ & U). rewrite E2. rewrite <- (U (Some s)); [reflexivity|]. now constructor.
Qed.
Print Assumptions C200_stays.

(** ** C201: burst_read() *)
Definition gives_list (o : outc (stat * list Z)) (chs : list change) (v : view) : Prop :=
  (Forall (fun ch => c_new ch = None) chs -> v_vals v = [] -> o = Ok (v_st v, [])) /\
  (Forall (fun ch => c_new ch = None) chs -> v_vals v <> [] -> o = Hang) /\
  (Exists (fun ch => c_new ch <> None) chs -> exists l, leaves chs [] l /\ o = Ok (v_st v, l ++ v_vals v)).
Theorem C201_read : forall move c fd root M p x off, pre_fine Rd M -> post_fine Rd M ->
  goes Rd c p root fd x -> off < m_size c ->
  let a := burst_read move c fd root M p off in
  exists seen v1 chs, passes (pre_list Rd M) (View off [] IsOk) seen v1 chs /\
  (v_st v1 <> IsOk -> gives_list (r_out a) chs v1) /\
  (v_st v1 = IsOk -> forall ch, move Rd x (restat v1 NotOk) = Some ch ->
      exists v2 seen2 v3 chs2, turned ch v2 /\
      passes ((WHook, m_hook M Rd Post) :: cbs_of M Rd Post) v2 seen2 v3 chs2 /\ gives_list (r_out a) (chs ++ ch :: chs2) v3).
Proof.
  intros move c fd root M p x off F G T O a.
  destruct (access_full move Rd c fd root M p x (Item (View off [] NotOk) None) F G T O) as (seen & v1 & chs & P & A & B).
  assert (OG : forall it' cs, own (Item (View off [] NotOk) None) cs it' ->
    gives_list (match i_own it' with
                | Some l => Ok (v_st (i_view it'), l ++ v_vals (i_view it'))
                | None => match v_vals (i_view it') with [] => Ok (v_st (i_view it'), []) | _ => Hang end
                end) cs (i_view it')).
  { intros it' cs (_ & H). destruct (H eq_refl) as [(-> & FN & L)|(l & -> & EX & L)]; unfold gives_list.
    - split; [intros _ ->; reflexivity|]. split; [intros _ NE; now destruct (v_vals (i_view it'))|].
      intros EX. apply Exists_exists in EX. destruct EX as (ch & I & NE). rewrite Forall_forall in FN. now rewrite FN in NE.
    - split; [|split]; [intros FN|intros FN|intros _; exists l; auto].
      all: apply Exists_exists in EX; destruct EX as (ch & I & NE); rewrite Forall_forall in FN; rewrite FN in NE by exact I; contradiction. }
  exists seen, v1, chs. split; [exact P|]. subst a. unfold burst_read, result. cbn [r_out]. split.
  - intros N. destruct (A N) as (_ & it' & -> & <- & OW). now apply OG.
  - intros N ch E. destruct (proj2 (B N) ch E) as (v2 & s2 & v3 & c2 & TU & P2 & _ & it' & -> & <- & OW).
    exists v2, s2, (i_view it'), c2. split; [exact TU|]. split; [exact P2|]. now apply OG.
Qed.
Print Assumptions C201_read.
(** Code that keeps the list and its length, as the default hooks and the built-in front door:
    nothing is ever read. *)
Definition keeps (f : view -> option change) : Prop :=
  forall v ch, f v = Some ch -> c_new ch = None /\ length (c_inplace ch) = length (v_vals v).
Theorem C201_nothing : forall move c fd root M p off s l, (forall k x, keeps (move k x)) ->
  (forall m, keeps (eff (m_hook M Rd m))) -> (forall n h m, In (n, h) (m_cbs M) -> keeps (eff (h Rd m))) ->
  r_out (burst_read move c fd root M p off) = Ok (s, l) -> l = [].
Proof.
  intros move c fd root M p off s l KM KH KC.
  set (none := fun i : item => i_own i = None /\ v_vals (i_view i) = []).
  set (good := fun x : list ev * outc item => match snd x with Ok i => none i | _ => True end).
  assert (KE : forall f i ch, keeps f -> none i -> f (i_view i) = Some ch -> none (change_item ch i)).
  { intros f i ch K (N1 & N2) E. destruct (K _ _ E) as (A & B). rewrite N2 in B. unfold none, change_item. cbn. rewrite A, N1. split; [reflexivity|].
    now destruct (c_inplace ch). }
  assert (AT : forall x f, good x -> (forall i, none i -> good (f i)) -> good (andthen x f)).
  { intros [t [i|e|]] f A B; cbn in *; auto. specialize (B i A). now destruct (f i). }
  assert (CA : forall aw w m co i, keeps (eff co) -> none i -> good (call aw w Rd m co i)).
  { intros aw w m co i K N. unfold call. destruct (_ && _); [exact N|]. cbn. unfold good. cbn. destruct (eff co (i_view i)) as [ch|] eqn:E; [|exact Logic.I].
    destruct (_ || _); [|exact Logic.I]. eapply KE; eauto. }
  assert (CC : forall aw m i, none i -> good (call_cbs aw Rd m (m_cbs M) i)).
  { intros aw m. revert KC. induction (m_cbs M) as [|[n h] t IH]; intros KC i N; cbn [call_cbs]; [exact N|]. apply AT.
    - apply CA; [eapply KC; now left|exact N].
    - apply IH. intros n0 h0 m0 I. apply (KC n0 h0). now right. }
  unfold burst_read, result, access. cbn [i_view v_off v_vals]. destruct (check _ _ _ _ _) as [[[errs q] info]|]; [|discriminate].
  assert (GB : good (body move Rd (m_rw c) fd root M q info (Item (View off [] NotOk) None))).
  { unfold body. apply AT; [apply CA; [apply KH|split; reflexivity]|]. intros i1 N1. apply AT; [now apply CC|]. intros i2 N2.
    destruct (negb _); [exact N2|]. apply AT.
    - assert (DM : forall x, good (do_move move Rd x (with_st i2 NotOk))).
      { intros x. unfold do_move, good. cbn [snd]. destruct (move Rd x _) as [ch|] eqn:E; [|exact Logic.I]. eapply KE; [apply (KM Rd x)| |exact E]. exact N2. }
      unfold transfer. destruct q; [destruct info; [destruct fd|exact Logic.I]| |]; apply DM.
    - intros i3 N3. apply AT; [apply CA; [apply KH|exact N3]|]. intros i4 N4. now apply CC. }
  destruct (body _ _ _ _ _ _ _ _ _) as [t o]. unfold good in GB. cbn [snd r_out] in *. destruct o as [i|e|]; try discriminate.
  destruct GB as (-> & ->). congruence.
Qed.
Print Assumptions C201_nothing.

(** ** Concrete cases *)
Definition mem4 : mcfg := MCfg 4 32 true false false false true false 4 [100] 4.
Definition acode (f : view -> change) : code := Code true (fun v => Some (f v)).
Definition same (v : view) : change := Change (v_off v) (v_vals v) None (v_st v).
Definition scale (v : view) : change := Change (v_off v) (map (Z.mul 2) (v_vals v)) None (v_st v).
Definition replace (v : view) : change := Change (v_off v) (v_vals v) (Some (map (Z.add 1) (v_vals v))) (v_st v).
Definition veto (v : view) : change := Change (v_off v) (v_vals v) None HasX.
Definition hooks (pw : view -> change) (k : kind) (m : meth) : code :=
  match k, m with Wr, Pre => acode pw | _, _ => acode same end.
(** the device answers a read with its offset + 50 and takes writes *)
Definition devmove (k : kind) (x : via) (v : view) : option change :=
  Some (match k with
        | Wr => Change (v_off v) (v_vals v) None IsOk
        | Rd => Change (v_off v) (map (fun _ => v_off v + 50) (v_vals v)) None IsOk
        end).
(** The hook doubles the values in the caller's list, a callback puts another list in its
    place; a veto of the callback ends it with the status set by it. *)
Definition M1 : mem := Mem (hooks scale) [(7%nat, hooks replace)].
Example C198_example :
  pre_fine Wr M1 /\ post_fine Wr M1 /\ goes Wr mem4 MFront (Some 9%nat) None ViaBus /\
  burst_write devmove mem4 None None M1 MFront 1 [10; 20] =
    Res [] [Called WHook Wr Pre (View 1 [10; 20] IsOk); Called (WCb 7) Wr Pre (View 1 [20; 40] IsOk);
            Moved Wr ViaBus (View 1 [21; 41] NotOk);
            Called WHook Wr Post (View 1 [21; 41] IsOk); Called (WCb 7) Wr Post (View 1 [21; 41] IsOk)]
        (Ok (IsOk, [20; 40])) /\
  write devmove mem4 None None (Mem (hooks same) [(7%nat, hooks veto)]) MFront 1 10 =
    Res [] [Called WHook Wr Pre (View 1 [10] IsOk); Called (WCb 7) Wr Pre (View 1 [10] IsOk)] (Ok HasX).
Proof.
  assert (F : forall f, fine (acode f)) by (intros f; split; [reflexivity|discriminate]).
  repeat split; auto; try discriminate; try (repeat constructor; discriminate); constructor; repeat split.
Qed.
(** The limits are checked before the hooks: the hook moves the access past the end. *)
Definition away (v : view) : change := Change 40 (v_vals v) None (v_st v).
Example C198_limit :
  write devmove mem4 None None (Mem (hooks away) []) MFront 1 10 =
    Res [] [Called WHook Wr Pre (View 1 [10] IsOk); Moved Wr ViaBus (View 40 [10] NotOk);
            Called WHook Wr Post (View 40 [10] IsOk)] (Ok IsOk).
Proof. reflexivity. Qed.
(** With any callback that inherits post_read, reads raise after the device was read; when
    post_read is a coroutine they do not, but its pre_read does not run. *)
Example C199_example :
  plain (inherited Rd Post) /\
  read devmove mem4 None None (Mem (hooks same) [(7%nat, inherited)]) MFront 1 =
    Res [] [Called WHook Rd Pre (View 1 [0] IsOk); Moved Rd ViaBus (View 1 [0] NotOk);
            Called WHook Rd Post (View 1 [51] IsOk); Called (WCb 7) Rd Post (View 1 [51] IsOk)] (Exc TypeErr) /\
  read devmove mem4 None None (Mem (hooks same) [(7%nat, hooks same)]) MFront 1 =
    Res [] [Called WHook Rd Pre (View 1 [0] IsOk); Moved Rd ViaBus (View 1 [0] NotOk);
            Called WHook Rd Post (View 1 [51] IsOk); Called (WCb 7) Rd Post (View 1 [51] IsOk)] (Ok (51, IsOk)).
Proof. split; [split; [reflexivity|discriminate]|]. split; reflexivity. Qed.
(** An unmapped memory and a burst past the end: the user-defined front door gets it without an
    error; the built-in one not. *)
Definition mem4u : mcfg := MCfg 4 32 true false false true true true 4 [] 0.
Example C200_example :
  burst_write devmove mem4u (Some None) (Some 9%nat) (Mem (hooks same) []) MDefault 3 [1; 2] =
    Res [] [Called WHook Wr Pre (View 3 [1; 2] IsOk); Moved Wr (ViaFd (Some 9%nat)) (View 3 [1; 2] NotOk);
            Called WHook Wr Post (View 3 [1; 2] IsOk)] (Ok (IsOk, [1; 2])) /\
  r_errs (burst_write devmove mem4u None (Some 9%nat) (Mem (hooks same) []) MDefault 3 [1; 2]) = [EUnmapped] /\
  snd (frun finit [LRoot 0 (Some 9%nat); LRoot 1 (Some 8%nat); LStart 5 0; LRoot 0 None; LStart 5 1; LStart 6 1; LAssign 5 None; LStart 5 0; LStart 5 1]) =
    [(5, Some 9); (5, Some 9); (6, Some 8); (5, None); (5, Some 8)]%nat.
Proof. repeat split. Qed.
(** Default hooks: no value. A front door that appends what it read: never returns. One that
    puts its own list in place: works. *)
Definition fdmove (r : bool) (k : kind) (x : via) (v : view) : option change :=
  Some (if r then Change (v_off v) (v_vals v) (Some [5; 6]) IsOk else Change (v_off v) [5; 6] None IsOk).
Example C201_example :
  r_out (burst_read devmove mem4 None None (Mem (hooks same) []) MFront 0) = Ok (IsOk, []) /\
  r_out (burst_read (fdmove false) mem4 (Some None) None (Mem (hooks same) []) MFront 0) = Hang /\
  r_out (burst_read (fdmove true) mem4 (Some None) None (Mem (hooks same) []) MFront 0) = Ok (IsOk, [5; 6]).
Proof. repeat split. Qed.
