(** Properties C175-C179: the hooks and callbacks of register accesses. *)
From Coq Require Import ZArith List Bool Arith Lia.
From Verif Require Import RegFieldModel RegModel RegCbModel RegCbSpec RegCbProofs.
Import ListNotations.
Open Scope Z_scope.

Definition sized (r : creg) : Prop := Forall (fun f => 0 < size (cf f) /\ 0 <= lsb (cf f)) (cr_fields r).

(** ** C175: what runs in a write *)

(** Every hook and callback written as the base classes declare them: a write runs
    exactly this, in this order. The write is refused exactly when that code leaves
    a status other than UVM_IS_OK; then nothing else happens. *)
Theorem C175_order : forall m auto bus_w r v, fine_calls r -> fine_pp r -> sized r ->
  let x := write m auto bus_w r v in
  (exists s, s <> IS_OK /\ map shape (w_tr x) = pre_write_order r /\ w_out x = Ok s) \/
  (map shape (w_tr x) = pre_write_order r ++ [SBusW] /\ w_out x = Exc BusExc) \/
  (exists s, map shape (w_tr x) = pre_write_order r ++ SBusW ::
               (if auto then predicted_order (fun _ => true) r else []) ++ post_write_order r
   /\ w_out x = Ok s).
Proof.
  intros m auto bus_w r v Fi Fp G x. subst x. rewrite write_eq.
  assert (A := setv_alikes v r).
  assert (Fi1 : fine_calls (setv v r)) by (apply fine_calls_alikes; assumption).
  assert (G1 : geom (cr_fields (setv v r))) by (eapply alikes_geom; eauto).
  destruct (pre_w_runs (setv v r) (masked v r) Fi1 G1) as (t & it & E & El & Sh & NB).
  unfold setv in Sh. rewrite pre_order_alikes in Sh by exact A.
  rewrite E. destruct (is_ok (i_st it)) eqn:Ok1; cbn [negb].
  2:{ left. exists (i_st it). cbn. split; [|auto]. intros H. rewrite H in Ok1. discriminate. }
  right. destruct (bus_w (i_val it)) as [st|].
  2:{ left. cbn. rewrite map_app, Sh. auto. }
  right. assert (A2 := predict_alikes m auto (setv v r) (i_val it)).
  assert (P : exists tp, snd (predict_w m auto (setv v r) (i_val it)) = (tp, Ok tt) /\
              map shape tp = if auto then predicted_order (fun _ => true) r else []).
  { unfold predict_w. destruct auto; [|now exists []].
    destruct (reg_do_predict_fine (cr_fields (setv v r)) 0 (i_val it) PWrite m) as (tp & Ep & Shp).
    { clear -Fp A. unfold fine_pp in Fp. revert Fp.
      induction A as [|f g a b (_ & Ec & _) A IH]; intros F; [constructor|]. inversion F; subst.
      constructor; [now rewrite <- Ec|auto]. }
    exists tp. split; [exact Ep|]. rewrite Shp. unfold predicted_order. clear -A.
    symmetry. generalize 0%nat. induction A as [|f g a b (_ & Ec & _) A IH]; intros n; [reflexivity|].
    cbn [number flat_map fst snd has_pp]. rewrite Ec, (IH (S n)). reflexivity. }
  destruct P as (tp & Ep & Shp).
  destruct (predict_w m auto (setv v r) (i_val it)) as [fs [tp' op]]. cbn [fst snd] in *. injection Ep as -> ->.
  assert (Ar : alikes (cr_fields r) fs) by (eapply alikes_trans; eauto).
  destruct (post_w_runs (with_cfields (setv v r) fs) (i_val it) (set_st it st)) as (t2 & it2 & E2 & Sh2 & NB2 & _).
  { apply (fine_calls_alikes (setv v r)); assumption. }
  { eapply alikes_geom; [exact Ar|exact G]. }
  { exact El. }
  rewrite E2. exists (i_st it2). cbn [w_tr w_out]. split; [|reflexivity].
  rewrite !map_app, Sh, Sh2, Shp. cbn [map shape]. rewrite <- !app_assoc. cbn [app]. do 3 f_equal.
  change (with_cfields (setv v r) fs) with (with_cfields r fs). now apply post_order_alikes.
Qed.
Print Assumptions C175_order.

(** Whatever the code of the hooks and callbacks: the only callbacks that a write
    runs are those of the fields, when there is a field. *)
Lemma call_who : forall aw w m c it w' m' e v, In (Called w' m' e v) (fst (call aw w m c it)) -> w' = w.
Proof.
  intros. unfold call in H. destruct (is_async c && negb aw); [easy|]. cbn in H. destruct H as [H|[]]. congruence.
Qed.
Lemma call_cbs_who : forall aw m st l it c m' e v,
  In (Called (WCb c) m' e v) (fst (call_cbs aw m st l it)) -> exists d, In d l /\ c_id d = c.
Proof.
  induction l as [|d l IH]; intros it c m' e v H; [easy|]. cbn [call_cbs] in H. unfold andthen in H.
  match type of H with In _ (fst (match ?X with _ => _ end)) => destruct X as [t [it'|x]] eqn:E end.
  - destruct (call_cbs aw m st l it') as [t2 o] eqn:E2. cbn [fst] in H. apply in_app_iff in H as [H|H].
    + exists d. split; [now left|]. assert (H' : In (Called (WCb c) m' e v) (fst (t, Ok it'))) by exact H.
      rewrite <- E in H'. apply call_who in H'. congruence.
    + specialize (IH it' c m' e v). rewrite E2 in IH. destruct (IH H) as (d' & ? & ?). exists d'. split; [now right|assumption].
  - cbn [fst] in H. exists d. split; [now left|]. assert (H' : In (Called (WCb c) m' e v) (fst (t, @Exc item x))) by exact H.
    rewrite <- E in H'. apply call_who in H'. congruence.
Qed.
Definition of_fields (fs : list cfield) (t : list ev) : Prop :=
  forall c m e v, In (Called (WCb c) m e v) t -> exists f d, In f fs /\ In d (cf_cbs f) /\ c_id d = c.
Lemma of_fields_app : forall fs a b, of_fields fs a -> of_fields fs b -> of_fields fs (a ++ b).
Proof. intros fs a b A B c m e v H. apply in_app_iff in H as [H|H]; [eapply A|eapply B]; eauto. Qed.
Lemma of_fields_andthen : forall fs A B (x : list ev * outc A) (k : A -> list ev * outc B),
  of_fields fs (fst x) -> (forall a, of_fields fs (fst (k a))) -> of_fields fs (fst (andthen x k)).
Proof.
  intros fs A B [t [a|e]] k H K; cbn; [|exact H]. specialize (K a). destruct (k a). now apply of_fields_app.
Qed.
Lemma of_fields_hook : forall fs aw w m c it, (forall n, w <> WCb n) -> of_fields fs (fst (call aw w m c it)).
Proof. intros fs aw w m c it N c' m' e v H. apply call_who in H. congruence. Qed.
Lemma of_fields_cbs : forall fs f aw m st it, In f fs -> of_fields fs (fst (call_cbs aw m st (cf_cbs f) it)).
Proof. intros fs f aw m st it Hf c m' e v H. apply call_cbs_who in H as (d & ? & ?). eauto. Qed.
Lemma of_fields_pre : forall all fs i value it, incl fs all -> of_fields all (fst (fields_pre_write i fs value it)).
Proof.
  intros all. induction fs as [|f fs IH]; intros i value it I; [easy|]. cbn [fields_pre_write].
  apply of_fields_andthen; [apply of_fields_hook; discriminate|]. intros it1.
  apply of_fields_andthen; [apply of_fields_cbs; apply I; now left|]. intros it2. apply IH. intros g Hg. apply I. now right.
Qed.
Lemma of_fields_post : forall all m fs i value it, incl fs all -> of_fields all (fst (fields_post m i fs value it)).
Proof.
  intros all m. induction fs as [|f fs IH]; intros i value it I; [easy|]. cbn [fields_post].
  apply of_fields_andthen; [apply of_fields_cbs; apply I; now left|]. intros it1.
  apply of_fields_andthen; [apply of_fields_hook; discriminate|]. intros it2. apply IH. intros g Hg. apply I. now right.
Qed.
Lemma of_fields_last : forall r aw m st it, cr_fields r <> [] ->
  of_fields (cr_fields r) (fst (call_cbs aw m st (last_cbs r) it)).
Proof.
  intros r aw m st it N. rewrite last_cbs_last. unfold write_cbs.
  destruct (cr_fields r) as [|f l] eqn:E using rev_ind; [congruence|].
  rewrite map_app. cbn [map]. rewrite last_last. apply of_fields_cbs. apply in_app_iff. right. now left.
Qed.
Lemma of_fields_predict : forall all fs i v k m, of_fields all (fst (snd (reg_do_predict i fs v k m))).
Proof.
  intros all. assert (PP : forall i l prev v, of_fields all (fst (post_predict i l prev v))).
  { intros i. induction l as [|c l IH]; intros prev v; [easy|]. cbn [post_predict]. destruct (c_pp c); [|easy].
    apply of_fields_andthen; [|intros; apply IH]. intros c' m' e v' [H|[]]. discriminate. }
  induction fs as [|f fs IH]; intros i v k m; [easy|]. cbn [reg_do_predict].
  assert (A : of_fields all (fst (snd (field_predict i f (slice v (cf f)) k m)))).
  { unfold field_predict. destruct (has_pp k (cf f) m).
    - specialize (PP i (cf_cbs f) (mirrored (cf f)) (raw_predicted k (cf f) (slice v (cf f)) m)).
      destruct (post_predict _ _ _ _) as [t [[]|e]]; exact PP.
    - destruct k; easy. }
  destruct (field_predict i f (slice v (cf f)) k m) as [f' [t [u|e]]]; cbn [fst snd] in A; [|exact A].
  specialize (IH (S i) v k m). destruct (reg_do_predict (S i) fs v k m) as [fs' [t2 o]]. now apply of_fields_app.
Qed.
Lemma of_fields_alikes : forall a b t, alikes a b -> of_fields b t -> of_fields a t.
Proof.
  intros a b t A H c m e v I. destruct (H c m e v I) as (g & d & Hg & Hd & Hc).
  assert (exists f, In f a /\ cf_cbs f = cf_cbs g) as (f & Hf & Ef).
  { clear -A Hg. induction A as [|f0 g0 a b (_ & E & _) A IH]; [easy|]. destruct Hg as [->|Hg]; [exists f0; split; [now left|assumption]|].
    destruct (IH Hg) as (f & ? & ?). exists f. split; [now right|assumption]. }
  exists f, d. rewrite Ef. auto.
Qed.
Theorem C175_own_callbacks : forall m auto bus_w r v, cr_fields r <> [] ->
  forall c me e z, In (Called (WCb c) me e z) (w_tr (write m auto bus_w r v)) ->
  exists f d, In f (cr_fields r) /\ In d (cf_cbs f) /\ c_id d = c.
Proof.
  intros m auto bus_w r v N. change (of_fields (cr_fields r) (w_tr (write m auto bus_w r v))).
  eapply of_fields_alikes; [apply (setv_alikes v)|]. rewrite write_eq.
  assert (N1 : cr_fields (setv v r) <> []) by (destruct r as [? ? ? [|]]; [now cbn in N|discriminate]).
  set (r1 := setv v r) in *.
  assert (P : of_fields (cr_fields r1) (fst (pre_w r1 (masked v r)))).
  { unfold pre_w. apply of_fields_andthen; [apply of_fields_pre; apply incl_refl|]. intros [x it].
    apply of_fields_andthen; [apply of_fields_hook; discriminate|]. intros it2. now apply of_fields_last. }
  destruct (pre_w r1 (masked v r)) as [t [it|e]]; cbn [fst] in P; [|exact P].
  destruct (is_ok (i_st it)); cbn [negb]; [|exact P].
  assert (B : forall fs, of_fields fs [BusW (i_val it)]) by (intros fs c me e z [H|[]]; discriminate).
  destruct (bus_w (i_val it)) as [st|]; [|cbn; now apply of_fields_app].
  assert (A2 := predict_alikes m auto r1 (i_val it)).
  assert (Q : of_fields (cr_fields r1) (fst (snd (predict_w m auto r1 (i_val it))))).
  { unfold predict_w. destruct auto; [apply of_fields_predict|easy]. }
  destruct (predict_w m auto r1 (i_val it)) as [fs [tp [u|e]]]; cbn [fst snd] in *.
  2:{ cbn [w_tr]. apply of_fields_app; [exact P|]. now apply of_fields_app. }
  assert (R : of_fields (cr_fields r1) (fst (post_w (with_cfields r1 fs) (i_val it) (set_st it st)))).
  { eapply of_fields_alikes; [exact A2|]. unfold post_w.
    apply of_fields_andthen; [apply (of_fields_last (with_cfields r1 fs)); cbn; destruct A2; [exact N1|discriminate]|]. intros it1.
    apply of_fields_andthen; [apply of_fields_hook; discriminate|]. intros it2. apply of_fields_post. apply incl_refl. }
  destruct (post_w (with_cfields r1 fs) (i_val it) (set_st it st)) as [t2 [it2|e]]; cbn [fst w_tr] in *;
    (apply of_fields_app; [apply of_fields_app; [exact P|now apply of_fields_app]|exact R]).
Qed.
Print Assumptions C175_own_callbacks.

(** If nothing was written on the bus, no mirrored value has changed. *)
Theorem C175_no_bus : forall m auto bus_w r v,
  bus_values (w_tr (write m auto bus_w r v)) = [] ->
  map (fun f => mirrored (cf f)) (cr_fields (w_reg (write m auto bus_w r v))) =
  map (fun f => mirrored (cf f)) (cr_fields r).
Proof.
  intros m auto bus_w r v. rewrite write_eq.
  assert (S0 : map (fun f => mirrored (cf f)) (cr_fields (setv v r)) = map (fun f => mirrored (cf f)) (cr_fields r)).
  { unfold setv. cbn. rewrite map_map. apply map_ext. intros f. reflexivity. }
  assert (NB : forall t x u, bus_values (t ++ [BusW x] ++ u) <> []).
  { intros t x u H. unfold bus_values in H. rewrite !flat_map_app in H. cbn in H. destruct (flat_map _ t); discriminate. }
  destruct (pre_w (setv v r) (masked v r)) as [t [it|e]]; [|intros _; exact S0].
  destruct (is_ok (i_st it)); cbn [negb]; [|intros _; exact S0].
  destruct (bus_w (i_val it)) as [st|].
  2:{ cbn. intros H. exfalso. apply (NB t (i_val it) []). now rewrite app_nil_r. }
  destruct (predict_w m auto (setv v r) (i_val it)) as [fs [tp [u|e]]].
  - destruct (post_w _ _ _) as [t2 [it2|e]]; cbn [w_tr]; rewrite <- !app_assoc; intros H; exfalso; now apply (NB t (i_val it) (tp ++ t2)).
  - cbn [w_tr]. intros H. exfalso. now apply (NB t (i_val it) tp).
Qed.
Print Assumptions C175_no_bus.

(** Disabling a callback with callback_mode() changes nothing: the accesses do the
    same for every mode of the callbacks. *)
Theorem C175_modes : forall b m auto bus_w bus_r r v,
  w_tr (write m auto bus_w (modes b r) v) = w_tr (write m auto bus_w r v) /\
  w_out (write m auto bus_w (modes b r) v) = w_out (write m auto bus_w r v) /\
  r_tr (read m auto bus_r (modes b r)) = r_tr (read m auto bus_r r) /\
  r_out (read m auto bus_r (modes b r)) = r_out (read m auto bus_r r).
Proof. intros. rewrite write_mode, read_mode. auto. Qed.
Print Assumptions C175_modes.

(** The lock is released exactly when the access returns: whatever raises leaves it
    taken (see C33_kept). *)
Theorem C175_release : forall m auto bus_w bus_r r v,
  (w_releases (write m auto bus_w r v) = 0%nat <-> exists e, w_out (write m auto bus_w r v) = Exc e) /\
  (r_releases (read m auto bus_r r) = 0%nat <-> exists e, r_out (read m auto bus_r r) = Exc e).
Proof.
  intros m auto bus_w bus_r r v. split.
  - rewrite write_eq. destruct (pre_w _ _) as [t [it|e]]; [|split; [intros _; eexists; reflexivity|reflexivity]].
    destruct (negb _); [split; [discriminate|intros (e & H); discriminate]|].
    destruct (bus_w _); [|split; [intros _; eexists; reflexivity|reflexivity]].
    destruct (predict_w _ _ _ _) as [fs [tp [u|e]]]; [|split; [intros _; eexists; reflexivity|reflexivity]].
    cbn zeta. match goal with |- context [match ?x with (_, _) => _ end] => destruct x as [t2 [it2|e]] end; [split; [discriminate|intros (e & H); discriminate]|split; [intros _; eexists; reflexivity|reflexivity]].
  - rewrite read_eq. destruct (pre_r _) as [t [it|e]]; [|split; [intros _; eexists; reflexivity|reflexivity]].
    destruct (negb _); [split; [discriminate|intros (e & H); discriminate]|].
    destruct bus_r as [[z st]|]; [|split; [intros _; eexists; reflexivity|reflexivity]].
    destruct (predict_r _ _ _ _) as [fs [tp [u|e]]]; [|split; [intros _; eexists; reflexivity|reflexivity]].
    cbn zeta. match goal with |- context [match ?x with (_, _) => _ end] => destruct x as [t2 [it2|e]] end; [split; [discriminate|intros (e & H); discriminate]|split; [intros _; eexists; reflexivity|reflexivity]].
Qed.
Print Assumptions C175_release.

(** ** C176: the value a write puts on the bus *)
Lemma masked_mod : forall v r, 0 <= cr_bits r -> masked v r = v mod 2 ^ cr_bits r.
Proof.
  intros. unfold masked. rewrite Z.shiftl_mul_pow2, Z.mul_1_l by lia.
  replace (2 ^ cr_bits r - 1) with (Z.ones (cr_bits r)) by (rewrite Z.ones_equiv; lia). now rewrite Z.land_ones by lia.
Qed.

Theorem C176_value : forall m auto bus_w r v, fine_calls r -> placed r ->
  let v1 := v mod 2 ^ cr_bits r in
  let (os, s1) := pre_outcomes EReg (number 0 (cr_fields r)) v1 IS_OK in
  Forall2 fits (cr_fields r) os ->
  exists x, assembled v1 (cr_fields r) os x /\
    let (w, s) := through ((EReg, cr_hook r PreWrite) :: cb_codes PreWrite EReg (write_cbs r)) x s1 in
    (s <> IS_OK -> bus_values (w_tr (write m auto bus_w r v)) = [] /\ w_out (write m auto bus_w r v) = Ok s) /\
    (s = IS_OK -> bus_values (w_tr (write m auto bus_w r v)) = [w] /\
       forall st, bus_w w = Some st -> (auto = true -> fine_pp r) ->
         w_out (write m auto bus_w r v) =
         Ok (post_write_status_fields (number 0 (cr_fields r)) w
               (snd (through (cb_codes PostWrite EReg (write_cbs r) ++ [(EReg, cr_hook r PostWrite)]) w st)))).
Proof.
  intros m auto bus_w r v Fi Pl v1. assert (Pl' := Pl). destruct Pl' as (Hb & G & D).
  destruct (pre_outcomes EReg (number 0 (cr_fields r)) v1 IS_OK) as [os s1] eqn:Ep. intros Ft.
  assert (A := setv_alikes v r).
  assert (Fi1 : fine_calls (setv v r)) by (apply fine_calls_alikes; assumption).
  assert (Pl1 : placed (setv v r)).
  { split; [exact Hb|]. split; [exact (alikes_geom _ _ A G)|exact (alikes_disj _ _ A D)]. }
  assert (X := pre_w_value (setv v r) v1 Fi1 Pl1).
  rewrite <- (alikes_outcomes _ _ A) in X. rewrite Ep in X.
  destruct (X (alikes_fits _ _ A _ Ft)) as (t & it & x & E & As & V). clear X.
  exists x. split.
  { eapply alikes_assembled; [|exact As]. clear -A. induction A as [|f g a b (?&?&?&?) A IH]; constructor; auto. repeat split; auto. }
  assert (W : write_cbs (setv v r) = write_cbs r) by (apply alikes_write_cbs; exact A).
  rewrite W in V. change (cr_hook (setv v r)) with (cr_hook r) in V.
  destruct (through _ x s1) as [w s] eqn:Et. injection V as V1 V2.
  assert (NBp : no_bus t).
  { destruct (pre_w_runs (setv v r) v1 Fi1 (proj1 (proj2 Pl1))) as (t' & it' & E' & _ & _ & NB). rewrite E in E'. now injection E' as <- <-. }
  assert (El : i_el it = EReg).
  { destruct (pre_w_runs (setv v r) v1 Fi1 (proj1 (proj2 Pl1))) as (t' & it' & E' & El & _). rewrite E in E'. now injection E' as <- <-. }
  rewrite write_eq, masked_mod by assumption. fold v1. rewrite E, V1, V2. destruct NBp as [NB1 _].
  split.
  - intros Ns. destruct s; [congruence| |]; cbn; auto.
  - intros ->. cbn [is_ok negb].
    assert (A2 := predict_alikes m auto (setv v r) w).
    assert (Q : no_bus (fst (snd (predict_w m auto (setv v r) w)))).
    { unfold predict_w. destruct auto; [apply reg_do_predict_no_bus|now split]. }
    assert (P : (auto = true -> fine_pp r) -> exists tp, snd (predict_w m auto (setv v r) w) = (tp, Ok tt)).
    { intros Fp. unfold predict_w. destruct auto; [|now exists []].
      destruct (reg_do_predict_fine (cr_fields (setv v r)) 0 w PWrite m) as (tp & Ep2 & Shp); [|eauto].
      specialize (Fp eq_refl). clear -Fp A. unfold fine_pp in Fp. revert Fp.
      induction A as [|f g a b (_ & Ec & _) A IH]; intros F; [constructor|]. inversion F; subst.
      constructor; [now rewrite <- Ec|auto]. }
    destruct (predict_w m auto (setv v r) w) as [fs [tp op]]. cbn [fst snd] in *. destruct Q as [Q1 _].
    assert (Ar : alikes (cr_fields r) fs) by (eapply alikes_trans; eauto).
    destruct (bus_w w) as [st|].
    + destruct op as [u|e].
      2:{ cbn [w_tr w_out]. split; [|intros st' _ Fp; destruct (P Fp); discriminate].
          unfold bus_values in *. rewrite !flat_map_app, NB1, Q1. reflexivity. }
      destruct (post_w_runs (with_cfields (setv v r) fs) w (set_st it st)) as (t2 & it2 & E2 & Sh2 & NB2 & St2).
      { apply (fine_calls_alikes (setv v r)); assumption. }
      { eapply alikes_geom; [exact Ar|exact G]. }
      { exact El. }
      rewrite E2. cbn [w_tr w_out]. split.
      * destruct NB2 as [NB2 _]. unfold bus_values in *. rewrite !flat_map_app, NB1, Q1, NB2. reflexivity.
      * intros st' [= <-] _. f_equal. rewrite St2. cbn [set_st i_val i_st]. rewrite V1.
        change (with_cfields (setv v r) fs) with (with_cfields r fs). rewrite alikes_write_cbs by exact Ar.
        cbn [with_cfields cr_hook cr_fields]. clear -Ar. unfold post_write_status_fields.
        generalize (snd (through (cb_codes PostWrite EReg (write_cbs r) ++ [(EReg, cr_hook r PostWrite)]) w st)).
        generalize 0%nat. induction Ar as [|f g a b (Hh & _ & L & Sz) A IH]; intros n s; [reflexivity|].
        cbn [number fold_left fst snd]. unfold part. rewrite Hh, L, Sz. apply IH.
    + cbn [w_tr w_out]. split; [|discriminate].
      unfold bus_values in *. rewrite !flat_map_app, NB1. reflexivity.
Qed.
Print Assumptions C176_value.

(** Code that leaves the operation alone is not seen on the bus. *)
Theorem C176_silent : forall m auto bus_w r v, fine_calls r -> placed r ->
  does_nothing (cr_hook r PreWrite) -> Forall (fun c => does_nothing (c_code c PreWrite)) (cr_cbs r) ->
  Forall (fun f => does_nothing (cf_hook f PreWrite) /\ Forall (fun c => does_nothing (c_code c PreWrite)) (cf_cbs f)) (cr_fields r) ->
  bus_values (w_tr (write m auto bus_w r v)) = [v mod 2 ^ cr_bits r].
Proof.
  intros m auto bus_w r v Fi Pl Hh Hc Hf. assert (Pl' := Pl). destruct Pl' as (Hb & G & D).
  assert (X := C176_value m auto bus_w r v Fi Pl). cbn zeta in X.
  set (v1 := v mod 2 ^ cr_bits r) in *.
  rewrite outcomes_nothing in X.
  2:{ intros i f Hin. apply in_number in Hin. rewrite Forall_forall in Hf. destruct (Hf f Hin) as [H1 H2]. split; [exact H1|].
      intros c Hin2. rewrite Forall_forall in H2. auto. }
  rewrite <- (map_map snd (fun f => part v1 (cf f))), number_snd in X.
  assert (V1 : 0 <= v1) by (apply Z.mod_pos_bound; apply Z.pow_pos_nonneg; lia).
  destruct X as (x & As & X).
  { clear -G. induction G as [|f l [Gs Gl] G IH]; constructor; [|exact IH].
    apply Z.mod_pos_bound. apply Z.pow_pos_nonneg; lia. }
  assert (x = v1) as ->.
  { apply Z.bits_inj'. intros k K.
    destruct (assembled_parts v1 (cr_fields r) x G V1 As); [|reflexivity].
    apply Z.bits_iff_nonneg_ex. exists (Z.max (cr_bits r) (1 + fold_right Z.max 0 (map (fun f => lsb (cf f) + size (cf f)) (cr_fields r)))).
    intros q Hq. destruct As as [A1 A2]. rewrite A2; [| |].
    - unfold v1. apply Z.mod_pow2_bits_high. lia.
    - lia.
    - intros f Hf' If. unfold in_field in If.
      assert (B : forall l, In f l -> lsb (cf f) + size (cf f) <= fold_right Z.max 0 (map (fun f => lsb (cf f) + size (cf f)) l)).
      { clear. induction l as [|g l IH]; intros H; [easy|]. cbn. destruct H as [->|H]; [lia|]. specialize (IH H). lia. }
      specialize (B _ Hf'). lia. }
  rewrite through_nothing in X.
  - destruct X as [_ X]. now apply X.
  - intros e c [E|E]; [injection E as <- <-; exact Hh|]. unfold cb_codes in E. apply in_map_iff in E as (c0 & E & Hin).
    injection E as <- <-. unfold write_cbs in Hin.
    destruct (cr_fields r) as [|f l] using rev_ind; [rewrite Forall_forall in Hc; auto|].
    rewrite map_app in Hin. cbn in Hin. rewrite last_last in Hin. apply Forall_app in Hf as [_ Hf].
    inversion Hf as [|? ? [_ H2] _]; subst. rewrite Forall_forall in H2. auto.
Qed.
Print Assumptions C176_silent.

(** ** C177: reads *)
Lemma part_alikes_status : forall a b, alikes a b -> forall n v s,
  post_read_status (number n a) v s = post_read_status (number n b) v s.
Proof.
  induction 1 as [|f g a b (Hh & Hc & L & Sz) A IH]; intros n v s; [reflexivity|]. cbn [number post_read_status].
  unfold part. rewrite Hh, Hc, L, Sz. apply IH.
Qed.
Lemma alikes_post_read_order : forall r fs, alikes (cr_fields r) fs -> post_read_order (with_cfields r fs) = post_read_order r.
Proof.
  intros r fs A. unfold post_read_order. cbn [with_cfields cr_fields cr_cbs cr_hook]. f_equal. f_equal. generalize 0%nat.
  induction A as [|f g a b (Hh & Hc & L & Sz) A IH]; intros n; [reflexivity|]. cbn [number flat_map fst snd]. rewrite Hc, (IH (S n)). reflexivity.
Qed.
Lemma has_pp_readable : forall f m, has_pp PRead (cf f) m = readable m f.
Proof. intros f m. unfold has_pp, readable. destruct (get_access (cf f) m); reflexivity. Qed.

(** The callbacks of the register do not run before a read (they are coroutines that
    nobody awaits); after it they run before the hook of the register, and the
    callbacks of a field before its hook. *)
Theorem C177_order : forall m auto bus_r r, fine_calls r -> (auto = true -> fine_pp r) -> sized r ->
  let x := read m auto bus_r r in
  let (v0, s0) := through (pre_read_codes r) 0 IS_OK in
  (s0 <> IS_OK -> map shape (r_tr x) = pre_read_order r /\ r_out x = Ok (v0, s0) /\ r_reg x = r) /\
  (s0 = IS_OK ->
     (bus_r = None -> map shape (r_tr x) = pre_read_order r ++ [SBusR] /\ r_out x = Exc BusExc) /\
     (forall v st, bus_r = Some (v, st) ->
        map shape (r_tr x) = pre_read_order r ++ SBusR ::
          (if auto then predicted_order (readable m) r else []) ++ post_read_order r /\
        r_out x = Ok (v, post_read_status (number 0 (cr_fields r)) v (snd (through (post_codes_reg r) v st))))).
Proof.
  intros m auto bus_r r Fi Fp G x. subst x.
  destruct (pre_r_runs r Fi) as (t & it & E & Sh & NB & V).
  destruct (through (pre_read_codes r) 0 IS_OK) as [v0 s0]. injection V as V1 V2.
  rewrite read_eq, E, V1, V2. split.
  - intros Ns. destruct s0; [congruence| |]; cbn; auto.
  - intros ->. cbn [is_ok negb]. split.
    + intros ->. cbn. rewrite map_app, Sh. auto.
    + intros v st ->.
      assert (A2 : alikes (cr_fields r) (fst (predict_r m auto r v))).
      { unfold predict_r. destruct auto; [apply reg_do_predict_alike|apply alikes_refl]. }
      assert (P : exists tp, snd (predict_r m auto r v) = (tp, Ok tt) /\
              map shape tp = if auto then predicted_order (readable m) r else []).
      { unfold predict_r. destruct auto; [|now exists []].
        destruct (reg_do_predict_fine (cr_fields r) 0 v PRead m (Fp eq_refl)) as (tp & Ep & Shp).
        exists tp. split; [exact Ep|]. rewrite Shp. unfold predicted_order. apply flat_map_ext. intros [i f]. cbn [fst snd].
        now rewrite has_pp_readable. }
      destruct P as (tp & Ep & Shp).
      destruct (predict_r m auto r v) as [fs [tp' op]]. cbn [fst snd] in *. injection Ep as -> ->.
      destruct (post_r_runs (with_cfields r fs) v st) as (t2 & it2 & E2 & Sh2 & NB2 & St2).
      { now apply fine_calls_alikes. }
      { eapply alikes_geom; eauto. }
      rewrite E2. cbn [r_tr r_out]. split.
      * rewrite !map_app, Sh, Sh2, Shp. cbn [map shape]. rewrite <- !app_assoc. cbn [app]. do 3 f_equal. now apply alikes_post_read_order.
      * rewrite St2. cbn [with_cfields cr_fields]. rewrite <- (part_alikes_status _ _ A2). reflexivity.
Qed.
Print Assumptions C177_order.

(** Whatever the hooks and callbacks do with the value: once the bus has been read,
    a read that returns, returns the value of the bus. *)
Theorem C177_value : forall m auto bus_r r v s,
  r_out (read m auto bus_r r) = Ok (v, s) ->
  In BusR (r_tr (read m auto bus_r r)) -> exists st, bus_r = Some (v, st).
Proof.
  intros m auto bus_r r v s. rewrite read_eq.
  assert (NR : ~ In BusR (fst (pre_r r))).
  { assert (C : forall aw w me c it, ~ In BusR (fst (call aw w me c it))).
    { intros. unfold call. destruct (is_async c && negb aw); cbn; intuition discriminate. }
    assert (AT : forall A B (x : list ev * outc A) (k : A -> list ev * outc B),
      ~ In BusR (fst x) -> (forall a, ~ In BusR (fst (k a))) -> ~ In BusR (fst (andthen x k))).
    { intros A B [t [a|e]] k H K; cbn; [|exact H]. specialize (K a). destruct (k a). cbn in *. rewrite in_app_iff. tauto. }
    assert (CC : forall aw me st l it, ~ In BusR (fst (call_cbs aw me st l it))).
    { intros aw me st. induction l as [|d l IH]; intros it; [easy|]. cbn [call_cbs]. apply AT; [apply C|exact IH]. }
    assert (FP : forall fs i it, ~ In BusR (fst (fields_pre_read i fs it))).
    { induction fs as [|f fs IH]; intros i it; [easy|]. cbn [fields_pre_read]. apply AT; [apply C|]. intros it1. apply AT; [apply CC|]. intros it2. apply IH. }
    unfold pre_r. apply AT; [apply FP|]. intros it1. apply AT; [apply C|]. intros it2. apply CC. }
  destruct (pre_r r) as [t [it|e]]; cbn [fst] in NR; [|discriminate].
  destruct (is_ok (i_st it)); cbn [negb].
  2:{ cbn. intros _ H. contradiction. }
  destruct bus_r as [[v' st]|]; [|discriminate].
  destruct (predict_r m auto r v') as [fs [tp [u|e]]]; [|discriminate].
  destruct (post_r _ _ _) as [t2 [it2|e]]; [|discriminate]. cbn. intros [= <- <-] _. eauto.
Qed.
Print Assumptions C177_value.

(** ** C178: predictions and post_predict *)

(** Callbacks cannot change a prediction: it is that of a register without
    callbacks (RegModel.v), whatever they return. *)
Theorem C178_values : forall k m r v, k <> PDirect -> fine_pp r -> sized r ->
  map cf (fst (reg_do_predict 0 (cr_fields r) v k m)) =
  fields (fst (reg_predict (plain r) v k FrontOrPredict m (-1))).
Proof.
  intros k m r v K Fp G. rewrite reg_do_predict_plain; [|assumption| |exact Fp].
  - unfold reg_predict, plain. cbn [busy fields andb].
    destruct (predict_fields false (map cf (cr_fields r)) v k FrontOrPredict m (-1) true). reflexivity.
  - eapply Forall_impl; [|exact G]. cbn. tauto.
Qed.
Print Assumptions C178_values.

(** Each callback of each field predicted is told the mirrored values before and
    after, once. *)
Theorem C178_told : forall k m r v, k = PWrite \/ k = PRead -> fine_pp r -> in_range r ->
  snd (reg_do_predict 0 (cr_fields r) v k m) =
  (told_all (cr_fields r) (fst (reg_do_predict 0 (cr_fields r) v k m))
     (match k with PRead => readable m | _ => fun _ => true end), Ok tt).
Proof.
  intros k m r v K Fp R.
  assert (K' : k <> PDirect) by (destruct K as [->| ->]; discriminate).
  assert (T := reg_do_predict_told (cr_fields r) 0 v k m K' Fp R).
  destruct (reg_do_predict_fine (cr_fields r) 0 v k m Fp) as (t & E & _).
  destruct (reg_do_predict 0 (cr_fields r) v k m) as [fs [t' o]]. cbn [fst snd] in *. injection E as -> ->. f_equal.
  rewrite T. unfold told_all. apply flat_map_ext. intros [i [f g]]. destruct K as [->| ->]; [reflexivity|]. now rewrite has_pp_readable.
Qed.
Print Assumptions C178_told.

(** A callback of a field that lacks post_predict, as any class derived from
    UVMRegCbs that does not define it: the write reaches the bus, then raises
    AttributeError. The lock is not released, no post_write code runs, and this
    field and the later ones keep their mirrored values. *)
Theorem C178_missing_write : forall m bus_w r v a f b c1 c c2,
  fine_calls r -> sized r -> (forall z, bus_w z <> None) ->
  cr_fields r = a ++ f :: b -> cf_cbs f = c1 ++ c :: c2 ->
  Forall (fun g => Forall pp_fine (cf_cbs g)) a -> Forall pp_fine c1 -> c_pp c = None ->
  let x := write m true bus_w r v in
  (exists s, s <> IS_OK /\ map shape (w_tr x) = pre_write_order r /\ w_out x = Ok s) \/
  (map shape (w_tr x) = pre_write_order r ++ SBusW ::
     predicted_order (fun _ => true) (with_cfields r a) ++ map (fun d => SPredicted (c_id d) (length a)) c1 /\
   w_out x = Exc AttrErr /\ w_releases x = 0%nat /\
   map (fun g => mirrored (cf g)) (skipn (length a) (cr_fields (w_reg x))) = map (fun g => mirrored (cf g)) (f :: b)).
Proof.
  intros m bus_w r v a f b c1 c c2 Fi G Bus Ef Ec Fa F1 Nc x. subst x. rewrite write_eq.
  assert (A := setv_alikes v r).
  assert (Fi1 : fine_calls (setv v r)) by (apply fine_calls_alikes; assumption).
  assert (G1 : geom (cr_fields (setv v r))) by (eapply alikes_geom; eauto).
  destruct (pre_w_runs (setv v r) (masked v r) Fi1 G1) as (t & it & E & El & Sh & NB).
  unfold setv in Sh. rewrite pre_order_alikes in Sh by exact A.
  rewrite E. destruct (is_ok (i_st it)) eqn:Ok1; cbn [negb].
  2:{ left. exists (i_st it). cbn. split; [|auto]. intros H. rewrite H in Ok1. discriminate. }
  right. assert (Hb := Bus (i_val it)). destruct (bus_w (i_val it)) as [st|]; [|congruence].
  set (h := fun f => map_field (fun g => f_set g (slice v g)) f).
  assert (Es : cr_fields (setv v r) = map h a ++ h f :: map h b).
  { unfold setv. cbn [with_cfields cr_fields]. rewrite Ef, map_app. reflexivity. }
  destruct (reg_do_predict_missing PWrite m (i_val it) (map h a) 0 (h f) (map h b) c1 c c2) as (tp & Ep & Shp & Mp).
  { rewrite Forall_map. exact Fa. }
  { reflexivity. }
  { exact Ec. }
  { exact F1. }
  { exact Nc. }
  unfold predict_w. rewrite Es.
  destruct (reg_do_predict 0 (map h a ++ h f :: map h b) (i_val it) PWrite m) as [fs [tp' op]]. cbn [fst snd] in *. injection Ep as -> ->.
  cbn [w_tr w_out w_releases w_reg with_cfields cr_fields]. rewrite map_length in Mp, Shp. split; [|split; [reflexivity|split; [reflexivity|]]].
  - rewrite !map_app, Sh, Shp. cbn [map shape app]. do 3 f_equal. unfold predicted_order. cbn [cr_fields].
    clear. generalize 0%nat. induction a as [|g a IH]; intros n; [reflexivity|]. cbn [map number flat_map fst snd]. rewrite (IH (S n)). reflexivity.
  - rewrite Mp. cbn [map]. f_equal. rewrite map_map. reflexivity.
Qed.
Print Assumptions C178_missing_write.

(** The same for a read, when the field can be read through the map. *)
Theorem C178_missing_read : forall m bus_r r a f b c1 c c2 v st,
  fine_calls r -> sized r -> bus_r = Some (v, st) ->
  cr_fields r = a ++ f :: b -> cf_cbs f = c1 ++ c :: c2 -> readable m f = true ->
  Forall (fun g => Forall pp_fine (cf_cbs g)) a -> Forall pp_fine c1 -> c_pp c = None ->
  snd (through (pre_read_codes r) 0 IS_OK) = IS_OK ->
  let x := read m true bus_r r in
  map shape (r_tr x) = pre_read_order r ++ SBusR ::
     predicted_order (readable m) (with_cfields r a) ++ map (fun d => SPredicted (c_id d) (length a)) c1 /\
  r_out x = Exc AttrErr /\ r_releases x = 0%nat /\
  map (fun g => mirrored (cf g)) (skipn (length a) (cr_fields (r_reg x))) = map (fun g => mirrored (cf g)) (f :: b).
Proof.
  intros m bus_r r a f b c1 c c2 v st Fi G -> Ef Ec Rf Fa F1 Nc S0 x. subst x.
  destruct (pre_r_runs r Fi) as (t & it & E & Sh & NB & V).
  rewrite read_eq, E. rewrite <- V in S0. cbn [snd] in S0. rewrite S0. cbn [is_ok negb].
  destruct (reg_do_predict_missing PRead m v a 0 f b c1 c c2 Fa) as (tp & Ep & Shp & Mp); [now rewrite has_pp_readable|assumption..|].
  unfold predict_r. rewrite Ef.
  destruct (reg_do_predict 0 (a ++ f :: b) v PRead m) as [fs [tp' op]]. cbn [fst snd] in *. injection Ep as -> ->.
  cbn [r_tr r_out r_releases r_reg with_cfields cr_fields]. split; [|split; [reflexivity|split; [reflexivity|exact Mp]]].
  rewrite !map_app, Sh, Shp. cbn [map shape app]. do 3 f_equal. unfold predicted_order. cbn [cr_fields].
  apply flat_map_ext. intros [i g]. cbn [fst snd]. now rewrite has_pp_readable.
Qed.
Print Assumptions C178_missing_read.

(** ** C179: the read-only and write-only callbacks refuse nothing *)
Definition bare (r : creg) : Prop :=
  fine_hooks (cr_hook r) /\ (forall me, does_nothing (cr_hook r me)) /\ cr_cbs r = [] /\
  Forall (fun f => fine_hooks (cf_hook f) /\ (forall me, does_nothing (cf_hook f me)) /\ cf_cbs f = []) (cr_fields r).
Lemma default_fine : forall c, fine_cb (default_cb c).
Proof. intros c m. split; [destruct m; reflexivity|discriminate]. Qed.
Lemma builtin_fine : forall c r, bare r -> fine_calls (add_builtin c r).
Proof.
  intros c r (Fh & _ & Ec & Ff). split; [exact Fh|]. unfold add_builtin. cbn [cr_cbs cr_fields]. rewrite Ec. split.
  - constructor; [apply default_fine|constructor].
  - rewrite Forall_map. eapply Forall_impl; [|exact Ff]. intros f (H & _ & E). cbn. split; [exact H|]. rewrite E. constructor; [apply default_fine|constructor].
Qed.
Lemma builtin_placed : forall c r, placed r -> placed (add_builtin c r).
Proof.
  intros c r (Hb & G & D). split; [exact Hb|]. unfold add_builtin. cbn [cr_fields]. split.
  - rewrite Forall_map. exact G.
  - intros i j f g k Hi Hj Kf Kg. rewrite nth_error_map in Hi, Hj.
    destruct (nth_error (cr_fields r) i) as [f0|] eqn:Ei; [|discriminate]. destruct (nth_error (cr_fields r) j) as [g0|] eqn:Ej; [|discriminate].
    injection Hi as <-. injection Hj as <-. eapply (D i j f0 g0 k); eauto.
Qed.

Lemma parts_fit : forall w l, Forall (fun f => 0 < size (cf f) /\ 0 <= lsb (cf f)) l -> Forall2 fits l (map (fun f => part w (cf f)) l).
Proof.
  intros w l G. induction G as [|f l [Gs Gl] G IH]; constructor; [|exact IH]. apply Z.mod_pos_bound. apply Z.pow_pos_nonneg; lia.
Qed.
Lemma no_bus_in_order : forall r, ~ In SBusW (pre_write_order r).
Proof.
  intros r H. unfold pre_write_order in H. apply in_app_iff in H as [H|[H|H]]; [|discriminate|].
  - revert H. generalize EReg. induction (number 0 (cr_fields r)) as [|[i f] l IH]; intros e H; [easy|]. cbn [pre_write_fields] in H.
    destruct H as [H|H]; [discriminate|]. apply in_app_iff in H as [H|H]; [|eapply IH; eauto].
    unfold cb_calls in H. apply in_map_iff in H as (? & ? & _). discriminate.
  - unfold cb_calls in H. apply in_map_iff in H as (? & ? & _). discriminate.
Qed.
Lemma bus_in_shape : forall t, bus_values t <> [] -> In SBusW (map shape t).
Proof.
  induction t as [|e t IH]; intros H; [now cbn in H|]. destruct e; cbn in *; auto.
Qed.

Definition sreads (l : list sh) : list unit := flat_map (fun s => match s with SBusR => [tt] | _ => [] end) l.
Lemma reads_in_shape : forall t l, map shape t = l -> bus_reads t = sreads l.
Proof. intros t l <-. induction t as [|e t IH]; [reflexivity|]. unfold bus_reads, sreads in *. destruct e; cbn [map shape flat_map app]; now rewrite IH. Qed.
Lemma reads_app : forall a b, sreads (a ++ b) = sreads a ++ sreads b.
Proof. intros. apply flat_map_app. Qed.
Lemma reads_cb : forall me e l, sreads (cb_calls me e l) = [].
Proof. intros me e l. induction l; [reflexivity|assumption]. Qed.
Lemma reads_once0 : forall r, sreads (pre_read_order r) = [].
Proof.
  intros r. unfold pre_read_order. rewrite reads_app. cbn [sreads flat_map app]. rewrite app_nil_r.
  induction (number 0 (cr_fields r)) as [|[i f] l IH]; [reflexivity|]. cbn [flat_map]. rewrite !reads_app, IH. cbn [fst snd].
  rewrite app_nil_r. unfold sreads. cbn [flat_map app]. apply reads_cb.
Qed.
Lemma reads_once : forall r, sreads (pre_read_order r ++ [SBusR]) = [tt].
Proof. intros r. now rewrite reads_app, reads_once0. Qed.
Lemma post_reads : forall r, sreads (SBusR :: post_read_order r) = [tt].
Proof.
  intros r. change (tt :: sreads (post_read_order r) = [tt]). f_equal. unfold post_read_order. rewrite reads_app, reads_cb. cbn [app]. unfold sreads at 1. cbn [flat_map app].
  induction (number 0 (cr_fields r)) as [|[i f] l IH]; [reflexivity|]. cbn [flat_map fst snd]. rewrite flat_map_app, IH.
  rewrite flat_map_app. assert (R := reads_cb PostRead (EFld i) (cf_cbs f)). unfold sreads in R. rewrite R. reflexivity.
Qed.

(** A register with no other hooks and callbacks, after UVMRegReadOnlyCbs.add (or
    UVMRegWriteOnlyCbs.add): every write still reaches the bus, with the value
    given. If the map predicts, it then raises and the lock is kept; if not, it
    returns the status of the bus. *)
Theorem C179_write : forall c m auto bus_w r v st, bare r -> placed r -> cr_fields r <> [] ->
  (forall z, bus_w z = Some st) ->
  let x := write m auto bus_w (add_builtin c r) v in
  bus_values (w_tr x) = [v mod 2 ^ cr_bits r] /\
  (auto = true -> w_out x = Exc AttrErr /\ w_releases x = 0%nat) /\
  (auto = false -> w_out x = Ok st).
Proof.
  intros c m auto bus_w r v st Ba Pl Nf Bus x.
  assert (Fi := builtin_fine c r Ba). assert (Pl2 := builtin_placed c r Pl).
  assert (Nc : forall me l d, In d (add_cb l (default_cb c)) -> l = [] -> does_nothing (c_code d me)).
  { intros me l d Hd ->. destruct Hd as [<-|[]]. intros it. reflexivity. }
  assert (Ba' := Ba). destruct Ba' as (Fh & Dh & Ec & Ff).
  assert (Dc : forall me, Forall (fun d => does_nothing (c_code d me)) (cr_cbs (add_builtin c r))).
  { intros me. apply Forall_forall. intros d Hd. exact (Nc me _ d Hd Ec). }
  assert (Df : forall me, Forall (fun f => does_nothing (cf_hook f me) /\ Forall (fun d => does_nothing (c_code d me)) (cf_cbs f)) (cr_fields (add_builtin c r))).
  { intros me. unfold add_builtin. cbn [cr_fields]. rewrite Forall_map. eapply Forall_impl; [|exact Ff]. intros f (_ & H & E). split; [apply H|].
    apply Forall_forall. intros d Hd. exact (Nc me _ d Hd E). }
  assert (B := C176_silent m auto bus_w (add_builtin c r) v Fi Pl2 (Dh PreWrite) (Dc PreWrite) (Df PreWrite)).
  fold x in B. split; [exact B|]. split.
  - intros ->. destruct (cr_fields r) as [|f fl] eqn:Er; [congruence|].
    inversion Ff as [|? ? (_ & _ & E) _]; subst.
    destruct (C178_missing_write m bus_w (add_builtin c r) v [] (CField (cf f) (cf_hook f) (add_cb (cf_cbs f) (default_cb c)))
      (map (fun f => CField (cf f) (cf_hook f) (add_cb (cf_cbs f) (default_cb c))) fl) [] (default_cb c) []) as [R|R];
      [exact Fi|exact (proj1 (proj2 Pl2))|intros z; rewrite Bus; discriminate|unfold add_builtin; cbn [cr_fields]; now rewrite Er
      |cbn [cf_cbs]; now rewrite E|constructor|constructor|reflexivity| |].
    + exfalso. destruct R as (s & _ & Sh & _). apply (no_bus_in_order (add_builtin c r)). rewrite <- Sh. apply bus_in_shape.
      fold x. rewrite B. discriminate.
    + destruct R as (_ & R1 & R2 & _). auto.
  - intros ->.
    assert (X := C176_value m false bus_w (add_builtin c r) v Fi Pl2). cbn zeta in X.
    destruct (pre_outcomes EReg (number 0 (cr_fields (add_builtin c r))) (v mod 2 ^ cr_bits (add_builtin c r)) IS_OK) as [os s1] eqn:Eo.
    rewrite outcomes_nothing in Eo.
    2:{ intros i f Hin. apply in_number in Hin. specialize (Df PreWrite). rewrite Forall_forall in Df. destruct (Df f Hin) as [H1 H2]. split; [exact H1|].
        intros d Hin2. rewrite Forall_forall in H2. auto. }
    injection Eo as <- <-. destruct X as (y & _ & X).
    { rewrite <- (map_map snd (fun f => part _ (cf f))), number_snd. apply parts_fit. exact (proj1 (proj2 Pl2)). }
    assert (Wn : forall me d, In d (write_cbs (add_builtin c r)) -> does_nothing (c_code d me)).
    { intros me d Hin. unfold write_cbs in Hin. specialize (Df me). specialize (Dc me).
      destruct (cr_fields (add_builtin c r)) as [|f l] using rev_ind; [rewrite Forall_forall in Dc; auto|].
      rewrite map_app in Hin. cbn [map] in Hin. rewrite last_last in Hin. apply Forall_app in Df as [_ Df].
      inversion Df as [|? ? [_ H2] _]; subst. rewrite Forall_forall in H2. auto. }
    rewrite through_nothing in X.
    2:{ intros e d [H|H]; [injection H as <- <-; apply Dh|]. unfold cb_codes in H. apply in_map_iff in H as (d0 & H & Hin). injection H as <- <-. now apply Wn. }
    destruct X as [_ X]. destruct (X eq_refl) as [_ X2]. specialize (X2 st (Bus _) ltac:(discriminate)).
    fold x in X2. rewrite X2. f_equal.
    rewrite through_nothing.
    2:{ intros e d H. apply in_app_iff in H as [H|[H|[]]]; [|injection H as <- <-; apply Dh].
        unfold cb_codes in H. apply in_map_iff in H as (d0 & H & Hin). injection H as <- <-. now apply Wn. }
    cbn [snd]. specialize (Df PostWrite). clear -Df. unfold post_write_status_fields. generalize 0%nat.
    induction Df as [|f l [H _] F IH]; intros n; [reflexivity|]. cbn [number fold_left fst snd].
    rewrite through_nothing; [|intros e d [E|[]]; injection E as <- <-; exact H]. cbn [snd]. apply IH.
Qed.
Print Assumptions C179_write.

(** The same for reads. *)
Theorem C179_read : forall c m auto r f l v st, bare r -> placed r -> cr_fields r = f :: l -> readable m f = true ->
  let x := read m auto (Some (v, st)) (add_builtin c r) in
  bus_reads (r_tr x) = [tt] /\
  (auto = true -> r_out x = Exc AttrErr /\ r_releases x = 0%nat) /\
  (auto = false -> r_out x = Ok (v, st)).
Proof.
  intros c m auto r f l v st Ba Pl Er Rd x.
  assert (Fi := builtin_fine c r Ba). assert (Pl2 := builtin_placed c r Pl).
  assert (Ba' := Ba). destruct Ba' as (Fh & Dh & Ec & Ff).
  assert (Dc : forall me, Forall (fun d => does_nothing (c_code d me)) (cr_cbs (add_builtin c r))).
  { intros me. apply Forall_forall. intros d Hd. unfold add_builtin in Hd. cbn [cr_cbs] in Hd. rewrite Ec in Hd.
    destruct Hd as [<-|[]]. intros it. reflexivity. }
  assert (Df : forall me, Forall (fun f => does_nothing (cf_hook f me) /\ Forall (fun d => does_nothing (c_code d me)) (cf_cbs f)) (cr_fields (add_builtin c r))).
  { intros me. unfold add_builtin. cbn [cr_fields]. rewrite Forall_map. eapply Forall_impl; [|exact Ff]. intros g (_ & H & E). split; [apply H|].
    cbn [cf_cbs]. rewrite E. constructor; [intros it; reflexivity|constructor]. }
  assert (Pn : forall e d, In (e, d) (pre_read_codes (add_builtin c r)) -> does_nothing d).
  { intros e d H. unfold pre_read_codes in H. apply in_app_iff in H as [H|[H|[]]]; [|injection H as <- <-; apply Dh].
    apply in_flat_map in H as ([i g] & Hin & H). apply in_number in Hin. specialize (Df PreRead). rewrite Forall_forall in Df.
    destruct (Df g Hin) as [H1 H2]. destruct H as [H|H]; [injection H as <- <-; exact H1|].
    unfold cb_codes in H. apply in_map_iff in H as (d0 & H & Hin2). injection H as <- <-. rewrite Forall_forall in H2. now apply H2. }
  assert (S0 := through_nothing _ 0 IS_OK Pn).
  unfold x. destruct auto.
  - assert (E : cf_cbs f = []) by (rewrite Er in Ff; now inversion Ff as [|? ? (_ & _ & E) _]).
    destruct (C178_missing_read m (Some (v, st)) (add_builtin c r) [] (CField (cf f) (cf_hook f) (add_cb (cf_cbs f) (default_cb c)))
      (map (fun f => CField (cf f) (cf_hook f) (add_cb (cf_cbs f) (default_cb c))) l) [] (default_cb c) [] v st) as (Sh & R1 & R2 & _);
      [exact Fi|exact (proj1 (proj2 Pl2))|reflexivity|unfold add_builtin; cbn [cr_fields]; now rewrite Er
      |cbn [cf_cbs]; now rewrite E|exact Rd|constructor|constructor|reflexivity|now rewrite S0|].
    cbn [map length app flat_map number with_cfields cr_fields predicted_order] in Sh.
    split; [|split; [intros _; split; assumption|discriminate]].
    rewrite (reads_in_shape _ _ Sh). apply reads_once.
  - assert (O := C177_order m false (Some (v, st)) (add_builtin c r) Fi ltac:(discriminate) (proj1 (proj2 Pl2))).
    cbn zeta in O. rewrite S0 in O. destruct O as [_ O]. destruct (O eq_refl) as [_ O2]. destruct (O2 v st eq_refl) as [Sh Ou].
    split; [|split; [discriminate|intros _]].
    + rewrite (reads_in_shape _ _ Sh). cbn [app]. rewrite reads_app, reads_once0. apply post_reads.
    + rewrite Ou. f_equal. f_equal.
      assert (N1 : forall e d, In (e, d) (post_codes_reg (add_builtin c r)) -> does_nothing d).
      { intros e d H. unfold post_codes_reg in H. apply in_app_iff in H as [H|[H|[]]]; [|injection H as <- <-; apply Dh].
        unfold cb_codes in H. apply in_map_iff in H as (d0 & H & Hin2). injection H as <- <-. specialize (Dc PostRead). rewrite Forall_forall in Dc. auto. }
      rewrite (through_nothing _ v st N1). cbn [snd]. specialize (Df PostRead). clear -Df. generalize 0%nat.
      induction Df as [|g fl [H H2] F IH]; intros n; [reflexivity|]. cbn [number post_read_status].
      rewrite through_nothing; [cbn [snd]; apply IH|]. intros e d Hd. apply in_app_iff in Hd as [Hd|[Hd|[]]]; [|injection Hd as <- <-; exact H].
      unfold cb_codes in Hd. apply in_map_iff in Hd as (d0 & Hd & Hin2). injection Hd as <- <-. rewrite Forall_forall in H2. auto.
Qed.
Print Assumptions C179_read.

(** ** Examples *)

(** Two fields (bits 0-3 and 4-7). [cbA] on the first adds 1 before a write; [cbB]
    on the second leaves everything as it is; [own], on the register, would refuse
    every write. *)
Definition exf (l : Z) : field := Field 4 l RW false 0 0 false [].
Definition idle_hooks : meth -> code := fun _ => Code true idle.
Definition told_cb (c : nat) (pw : item -> option (Z * status)) : cb :=
  Cb c true (fun me => Code (match me with PostRead => false | _ => true end) (match me with PreWrite => pw | _ => idle end))
     (Some (fun _ _ => true)).
Definition cbA := told_cb 1 (fun it => Some ((i_val it + 1) mod 16, i_st it)).
Definition cbB := told_cb 2 idle.
Definition own := told_cb 3 (fun it => Some (i_val it, NOT_OK)).
Definition ex_reg : creg := CReg 8 idle_hooks [own] [CField (exf 0) idle_hooks [cbA]; CField (exf 4) idle_hooks [cbB]].
Definition always : Z -> option status := fun _ => Some IS_OK.
Definition rw_map : via := Map RtRW.

Lemma told_cb_fine : forall c pw, (forall it, pw it <> None) -> fine_cb (told_cb c pw).
Proof. intros c pw H me. split; [now destruct me|]. cbn. destruct me; cbn; try discriminate. exact H. Qed.
Lemma ex_fine : fine_calls ex_reg /\ fine_pp ex_reg /\ placed ex_reg.
Proof.
  assert (H : fine_hooks idle_hooks) by (intros me; split; [reflexivity|discriminate]).
  split; [|split].
  - split; [exact H|]. split; [constructor; [apply told_cb_fine; discriminate|constructor]|].
    repeat constructor; cbn; try discriminate; try (apply told_cb_fine; discriminate); try (destruct m; cbn; discriminate); now destruct m.
  - repeat constructor; now exists (fun _ _ => true).
  - split; [cbn; lia|]. split; [repeat constructor; cbn; lia|].
    intros i j f g k Hi Hj Kf Kg. unfold in_field in *.
    destruct i as [|[|[|i]]], j as [|[|[|j]]]; cbn in Hi, Hj; try discriminate; try reflexivity;
      injection Hi as <-; injection Hj as <-; cbn in *; lia.
Qed.
Example C175_example :
  w_tr (write rw_map true always ex_reg 0x3f) =
  [Called (WFld 0) PreWrite EReg 15; Called (WCb 1) PreWrite (EFld 0) 15;
   Called (WFld 1) PreWrite (EFld 0) 3; Called (WCb 2) PreWrite (EFld 1) 3;
   Called WReg PreWrite EReg 0x30; Called (WCb 2) PreWrite EReg 0x30; BusW 0x30;
   Predicted 1 0 0 0; Predicted 2 1 0 3;
   Called (WCb 2) PostWrite EReg 0x30; Called WReg PostWrite EReg 0x30;
   Called (WFld 0) PostWrite (EFld 0) 0; Called (WFld 1) PostWrite (EFld 1) 3] /\
  w_out (write rw_map true always ex_reg 0x3f) = Ok IS_OK /\
  w_releases (write rw_map true (fun _ => None) ex_reg 0x3f) = 0%nat.
Proof. repeat split. Qed.
(** A plain function as pre_write of a callback: it runs, then the write raises
    before the bus and the lock is kept. *)
Definition plainfn : cb := Cb 4 true (fun _ => Code false idle) (Some (fun _ _ => true)).
Example C175_plain_limit :
  let x := write rw_map true always (CReg 8 idle_hooks [] [CField (exf 0) idle_hooks [plainfn]]) 5 in
  w_tr x = [Called (WFld 0) PreWrite EReg 5; Called (WCb 4) PreWrite (EFld 0) 5] /\
  w_out x = Exc TypeErr /\ w_releases x = 0%nat.
Proof. repeat split. Qed.
(** C175_own_callbacks, and the code of the register's own callback does run when
    the register has no fields. *)
Example C175_own_example :
  w_out (write rw_map true always (CReg 8 idle_hooks [own] []) 5) = Ok NOT_OK.
Proof. reflexivity. Qed.

Example C176_example :
  pre_outcomes EReg (number 0 (cr_fields ex_reg)) 0x3e IS_OK = ([15; 3], IS_OK) /\
  Forall2 fits (cr_fields ex_reg) [15; 3] /\
  bus_values (w_tr (write rw_map true always ex_reg 0x3e)) = [0x3f].
Proof. split; [reflexivity|]. split; [repeat constructor; unfold fits; cbn; lia|reflexivity]. Qed.
(** A value wider than the field set by its pre_write ends up in the field above:
    the fields do not keep to their places. *)
Definition wide := told_cb 5 (fun it => Some (i_val it + 1, i_st it)).
Example C176_wide_limit :
  bus_values (w_tr (write rw_map true always
    (CReg 8 idle_hooks [] [CField (exf 0) idle_hooks [wide]; CField (exf 4) idle_hooks [cbB]]) 0x2f)) = [0x30].
Proof. reflexivity. Qed.

(** A post_read that changes the value: neither read() nor the mirror sees it; a
    pre_read of a field that refuses stops the read. *)
Definition post9 : cb :=
  Cb 6 true (fun me => Code (match me with PostRead => false | _ => true end)
                            (match me with PostRead => fun it => Some (9, i_st it) | _ => idle end)) (Some (fun _ _ => true)).
Definition pre_no : meth -> code := fun me => Code true (match me with PreRead => fun it => Some (7, NOT_OK) | _ => idle end).
Example C177_example :
  let x := read rw_map true (Some (0x35, IS_OK)) (CReg 8 idle_hooks [post9] [CField (exf 0) idle_hooks [post9]; CField (exf 4) idle_hooks []]) in
  r_out x = Ok (0x35, IS_OK) /\ map (fun f => mirrored (cf f)) (cr_fields (r_reg x)) = [5; 3] /\
  r_tr x = [Called (WFld 0) PreRead (EFld 0) 0; Called (WCb 6) PreRead (EFld 0) 0; Called (WFld 1) PreRead (EFld 1) 0;
            Called WReg PreRead EReg 0; BusR; Predicted 6 0 0 5;
            Called (WCb 6) PostRead EReg 0x35; Called WReg PostRead EReg 9;
            Called (WCb 6) PostRead (EFld 0) 5; Called (WFld 0) PostRead (EFld 0) 9; Called (WFld 1) PostRead (EFld 1) 3] /\
  r_out (read rw_map true (Some (0x35, IS_OK)) (CReg 8 idle_hooks [] [CField (exf 0) pre_no []; CField (exf 4) idle_hooks []])) = Ok (7, NOT_OK).
Proof. repeat split. Qed.

Example C178_example :
  snd (reg_do_predict 0 (cr_fields ex_reg) 0x3f PWrite rw_map) = ([Predicted 1 0 0 15; Predicted 2 1 0 3], Ok tt) /\
  (let x := write rw_map true always (CReg 8 idle_hooks [] [CField (exf 0) idle_hooks [cbB]; CField (exf 4) idle_hooks [default_cb 7]]) 0x25 in
   bus_values (w_tr x) = [0x25] /\ w_out x = Exc AttrErr /\ w_releases x = 0%nat /\
   map (fun f => mirrored (cf f)) (cr_fields (w_reg x)) = [5; 0]).
Proof. repeat split. Qed.

Definition bare_reg : creg := CReg 8 idle_hooks [] [CField (exf 0) idle_hooks []; CField (exf 4) idle_hooks []].
Example C179_example :
  bare bare_reg /\
  bus_values (w_tr (write rw_map true always (add_builtin 1 bare_reg) 0x1ff)) = [0xff] /\
  w_out (write rw_map true always (add_builtin 1 bare_reg) 0x1ff) = Exc AttrErr /\
  w_out (write rw_map false always (add_builtin 1 bare_reg) 0x1ff) = Ok IS_OK /\
  r_out (read rw_map false (Some (3, IS_OK)) (add_builtin 1 bare_reg)) = Ok (3, IS_OK).
Proof.
  split; [|repeat split]. split; [intros me; split; [reflexivity|discriminate]|]. split; [intros me it; reflexivity|]. split; [reflexivity|].
  repeat constructor; discriminate.
Qed.
