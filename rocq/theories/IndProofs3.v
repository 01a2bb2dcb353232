(** Proofs about indirect registers: whole accesses. *)
From Coq Require Import ZArith List Bool Arith Lia.
From Verif Require Import Prelude IndModel IndSpec IndProofs IndProofs2.
Import ListNotations.
Local Open Scope nat_scope.

Lemma at_wf2 h h' i x l : wf2 h -> at_ h h' i x l -> vals x < ncell h -> wf2 h'.
Proof.
  intros [[H1 H2] H3] A HX. split; [split|].
  - intros o. rewrite (at_g _ _ _ _ _ A). apply H1.
  - intros j. rewrite (at_c _ _ _ _ _ A). destruct (Nat.eq_dec j i) as [->|N]; [now rewrite (at_item _ _ _ _ _ A)|rewrite (at_items _ _ _ _ _ A) by auto; apply H2].
  - intros j. rewrite (at_g _ _ _ _ _ A), (at_n _ _ _ _ _ A). apply H3.
Qed.
Lemma wf2_new h : wf2 h -> wf2 (fst (new_item h)).
Proof. intros [H1 H2]. split; [now apply wf_new|]. intros i Hi. cbn in *. specialize (H2 _ Hi). lia. Qed.
Lemma wf2_clone h s h' t : wf2 h -> s < nitem h -> clone h s = Some (h', t) -> wf2 h'.
Proof.
  intros [HW HI] HS E. split; [eapply wf_clone; eauto|]. destruct (in_dec_g s (gmap h)) as [H|H].
  - rewrite clone_recent in E by auto. injection E as <- <-. cbn. intros i Hi. specialize (HI _ Hi). lia.
  - rewrite clone_new in E by (auto; lia). injection E as <- <-. cbn. intros i [Q|Hi]; [injection Q as <-; lia|]. specialize (HI _ Hi). lia.
Qed.
Lemma wf2_cstep h c h' : wf2 h -> known h c -> cstep h c = Some h' -> wf2 h'.
Proof.
  intros [HW HI] HK E. split; [eapply wf_cstep; eauto|]. destruct c; cbn [cstep known] in *.
  - injection E as <-. cbn. intros i Hi. specialize (HI _ Hi). lia.
  - destruct (clone h s) as [[h1 t]|] eqn:EC; [|discriminate]. injection E as <-. apply (wf2_clone h s h1 t); auto. now split.
  - destruct (in_dec_g s (gmap h)) as [H|H]; [rewrite copy_recent in E by auto|rewrite copy_new in E by auto]; injection E as <-; cbn; auto.
    intros i [Q|Hi]; [injection Q as <-; tauto|auto].
  - injection E as <-. rewrite copy_other_is by auto. cbn. tauto.
  - injection E as <-. exact HI.
  - injection E as <-. exact HI.
  - injection E as <-. exact HI.
Qed.

Section I.
Context (size : nat) (bits : reg -> Z) (dflt : reg -> nat) (auto : bool).

Definition prep (s : sys) (k : access) (n : nat) (v : Z) (m : option nat) : sys :=
    let s0 := with_held s (Tab n) true in
    let s1 := match k with Wr => Sys (hp s0) (bus s0) (mir s0) (updr (des s0) (Tab n) (mask bits (Tab n) v)) (held s0) | Rd => s0 end in
    let '(h1, rw) := new_item (hp s1) in
    let h2 := match k with Wr => put0 h1 rw v | Rd => h1 end in
    let x := items h2 rw in
    let h3 := check_access dflt (set_item h2 rw (Item k (vals x) m (ok x) (Some (2 + n)) (rest x))) (Tab n) rw in
    let h4 := match k with Wr => put0 h3 rw (mask bits (Tab n) (val0 h3 rw)) | Rd => h3 end in
    with_hp s1 (set_ok h4 rw true).
Lemma tab_is s k n v m a : held s (Tab n) = false -> tab_access size bits dflt auto s k n v m a =
    match body size bits dflt auto (prep s k n v m) n (nitem (hp s)) a with
    | None => None
    | Some (Waits s3) => Some (Waits s3)
    | Some (Finished s3 _ _) =>
        let z := val0 (hp s3) (nitem (hp s)) in
        Some (Finished (with_held (autop size bits auto s3 (Tab n) z) (Tab n) false) (ok (items (hp s3) (nitem (hp s)))) z)
    end.
Proof. intros H. unfold tab_access. rewrite H. destruct k; reflexivity. Qed.
Definition des1 (s : sys) (k : access) (n : nat) (v : Z) : reg -> Z := match k with Wr => updr (des s) (Tab n) (mask bits (Tab n) v) | Rd => des s end.
Lemma prep_is s k n v m : wf2 (hp s) ->
  let s2 := prep s k n v m in let rw := nitem (hp s) in
  wf2 (hp s2) /\ ~ In (It rw) (gmap (hp s2)) /\ rw < nitem (hp s2) /\ (exists w, value (hp s2) rw = [w]) /\
  kind (items (hp s2) rw) = k /\ imap (items (hp s2) rw) = Some (asked dflt n m) /\ ok (items (hp s2) rw) = true /\
  bus s2 = bus s /\ mir s2 = mir s /\ des s2 = des1 s k n v /\ held s2 = updr (held s) (Tab n) true.
Proof.
  intros HW. cbn zeta. set (rw := nitem (hp s)). set (h1 := fst (new_item (hp s))).
  assert (A : exists w, at_ h1 (hp (prep s k n v m)) rw (Item k (ncell (hp s)) (Some (asked dflt n m)) true (Some (2 + n)) 0) [w]).
  { assert (A0 : at_ h1 h1 rw (Item Rd (ncell (hp s)) None true None 0) [0%Z]) by (split; cbn; auto; apply upd_eq).
    unfold prep. destruct k; cbn [hp with_hp with_held new_item]; fold rw; fold h1.
    - change (Heap _ _ _ _ _ _) with h1. eexists.
      rewrite (at_item _ _ _ _ _ A0). cbn [vals ok rest].
      pose proof (at_set _ _ _ _ _ Rd m true (Some (2 + n)) 0 A0) as A1. pose proof (at_check dflt _ _ (Tab n) _ _ _ A1) as A2.
      exact (at_ok _ _ _ _ _ true A2).
    - change (Heap _ _ _ _ _ _) with h1. pose proof (at_put _ _ _ _ _ v A0) as A0'. eexists.
      rewrite (at_item _ _ _ _ _ A0'). cbn [vals ok rest].
      pose proof (at_set _ _ _ _ _ Wr m true (Some (2 + n)) 0 A0') as A1. pose proof (at_check dflt _ _ (Tab n) _ _ _ A1) as A2.
      exact (at_ok _ _ _ _ _ true (at_put _ _ _ _ _ (mask bits (Tab n) (val0 (check_access dflt (set_item (put0 h1 rw v) rw (Item Wr (ncell (hp s)) m true (Some (2 + n)) 0)) (Tab n) rw) rw)) A2)). }
  destruct A as (w & A). pose proof (wf2_new (hp s) HW) as HW1. fold h1 in HW1.
  split; [eapply at_wf2; eauto; cbn; lia|]. split.
  { rewrite (at_g _ _ _ _ _ A). cbn. intros Q. pose proof (proj2 HW _ Q). unfold rw in *. lia. }
  split; [rewrite (at_n _ _ _ _ _ A); cbn; unfold rw; lia|]. split; [exists w; apply (at_val _ _ _ _ _ A)|].
  rewrite (at_item _ _ _ _ _ A). cbn [kind imap ok]. unfold prep, des1. destruct k; cbn; repeat split; auto.
Qed.

Lemma tab_ok s k n v m a : wf2 (hp s) -> free s n -> idx_ok a = true ->
  exists s', tab_access size bits dflt auto s k n v m a = Some (Finished s' (dat_ok a) (rw_val bits k n a)) /\
    bus s' = bus s ++ [Op Wr Idx (mask bits Idx (Z.of_nat n)) (asked dflt n m); dat_op bits dflt k n (asked dflt n m) (other_copy a)] /\
    (let md := pp size bits auto (mir s) (des1 s k n v) Idx (mask bits Idx (Z.of_nat n)) in
     let md2 := pp size bits auto (fst md) (snd md) Dat (dat_val bits k n a) in
     mir s' = fst (pp size bits auto (fst md2) (snd md2) (Tab n) (rw_val bits k n a)) /\
     des s' = snd (pp size bits auto (fst md2) (snd md2) (Tab n) (rw_val bits k n a))) /\
    (forall r, held s' r = held s r) /\ wf2 (hp s').
Proof.
  intros HW (FI & FD & FT) HO. destruct (prep_is s k n v m HW) as (W2 & NI & LT & (w & HV) & HK & HM & HOK & Hb & Hm & Hd & Hh).
  rewrite tab_is by auto. destruct (body_dat size bits dflt auto (prep s k n v m) n (nitem (hp s)) a w k (asked dflt n m)) as (s3 & EB & Sb & Sm & Sv & Sok & Sh & SW); auto.
  1: apply W2. 1,2: rewrite Hh; cbn; auto. rewrite EB. cbn zeta.
  destruct s3 as [h3 b3 m3 d3 l3]. cbn [hp bus mir des held] in *. rewrite autop_is, Sv, Sok. eexists. split; [reflexivity|].
  cbn [hp bus mir des held with_held]. rewrite Sb, Hb. destruct Sm as [-> ->]. rewrite Hm, Hd. split; [reflexivity|]. split; [auto|]. split; [|auto].
  intros r. unfold updr at 1. destruct (reg_eqb r (Tab n)) eqn:ER.
  - destruct r; cbn in ER; try discriminate. apply Nat.eqb_eq in ER. subst. auto.
  - rewrite Sh. destruct r; auto. rewrite Hh. unfold updr. now rewrite ER.
Qed.
Lemma tab_fail s k n v m a : wf2 (hp s) -> free s n -> idx_ok a = false ->
  exists s', tab_access size bits dflt auto s k n v m a = Some (Finished s' true (mask bits Idx (Z.of_nat n))) /\
    bus s' = bus s ++ [Op Wr Idx (mask bits Idx (Z.of_nat n)) (asked dflt n m)] /\
    (let md := pp size bits auto (mir s) (des1 s k n v) Idx (mask bits Idx (Z.of_nat n)) in
     mir s' = fst (pp size bits auto (fst md) (snd md) (Tab n) (mask bits Idx (Z.of_nat n)))) /\
    held s' Idx = true /\ held s' Dat = true /\ held s' (Tab n) = false /\ wf2 (hp s').
Proof.
  intros HW (FI & FD & FT) HO. destruct (prep_is s k n v m HW) as (W2 & NI & LT & (w & HV) & HK & HM & HOK & Hb & Hm & Hd & Hh).
  rewrite tab_is by auto. destruct (body_idx size bits dflt auto (prep s k n v m) n (nitem (hp s)) a w) as (s3 & IP & HB); auto.
  1: apply W2. 1,2: rewrite Hh; cbn; auto. rewrite HO in HB. cbn [negb] in HB. rewrite (HB _ eq_refl). cbn zeta.
  destruct IP as (Ibus & Imir & Ides & Iit & Ival & Igm & Init & Incell & Iwf & Iheld).
  destruct s3 as [h3 b3 m3 d3 l3]. cbn [hp bus mir des held] in *. rewrite autop_is. unfold val0. rewrite Ival, Iit, HOK. cbn [head]. eexists. split; [reflexivity|].
  cbn [hp bus mir des held with_held]. rewrite Ibus, Hb. unfold mp. rewrite HM. split; [reflexivity|]. rewrite Imir, Ides, Hm, Hd. split; [reflexivity|].
  split; [cbn; apply (Iheld Idx)|]. split; [cbn; apply (Iheld Dat)|]. split; [unfold updr; cbn; now rewrite Nat.eqb_refl|].
  split; auto. intros i. rewrite Igm, Init. intros [Q|Q]; [injection Q as <-; lia|]. pose proof (proj2 W2 _ Q). lia.
Qed.

(** ** Reachable states *)
Lemma body_wait s n rw a : wf2 (hp s) -> rw < nitem (hp s) -> held s Idx = true \/ held s Dat = true ->
  exists s', body size bits dflt auto s n rw a = Some (Waits s') /\ bus s' = bus s /\ held s' Idx = true /\ held s' Dat = held s Dat /\ wf2 (hp s').
Proof.
  intros HW HR HL. unfold body. destruct (clone_some (hp s) rw) as [h1 E]. rewrite E. pose proof (wf2_clone _ _ _ _ HW HR E) as W1.
  set (h2 := put0 _ _ _). assert (W2 : wf2 h2).
  { eapply at_wf2; [exact W1|eapply at_put, at_set, at_refl|]. cbn. apply W1. }
  destruct (held s Idx) eqn:HI; [eexists; split; [reflexivity|]; cbn; auto|]. destruct HL as [HL|HL]; [discriminate|]. rewrite HL.
  eexists. split; [reflexivity|]. cbn. auto.
Qed.
Lemma direct_is s r k v m okb d : wf2 (hp s) -> held s r = false ->
  exists s' st z, direct size bits dflt auto s r k v m okb d = Some (Finished s' st z) /\ held s' = held s /\ wf2 (hp s').
Proof.
  intros HW HH. unfold direct. rewrite HH. unfold new_item. set (rw := nitem (hp s)). set (h1 := Heap _ _ _ _ _ _).
  pose proof (wf2_new (hp s) HW) as W1. change (fst (new_item (hp s))) with h1 in W1.
  set (h2 := match k with Wr => put0 h1 rw v | Rd => h1 end).
  assert (A0 : at_ h1 h1 rw (Item Rd (ncell (hp s)) None true None 0) [0%Z]) by (split; cbn; auto; apply upd_eq).
  assert (A1 : exists l, l <> [] /\ at_ h1 h2 rw (Item Rd (ncell (hp s)) None true None 0) l).
  { unfold h2. destruct k; [exists [0%Z]|exists [v]]; split; try discriminate; auto. exact (at_put _ _ _ _ _ v A0). }
  destruct A1 as (l & HL & A1). rewrite (at_item _ _ _ _ _ A1). cbn [vals ok rest].
  pose proof (at_set _ _ _ _ _ k m true (Some 0) 0 A1) as A2. cbn [vals] in A2. set (h3 := set_item h2 rw _) in *.
  do 3 eexists. split; [reflexivity|]. destruct k.
  - destruct (do_read_is size bits dflt auto (with_hp s h3) r rw okb d _ _ (at_item _ _ _ _ _ A2) (at_val _ _ _ _ _ A2) HL) as (h' & E & A3).
    rewrite E. destruct (autop_hp size bits auto (Sys h' (bus (with_hp s h3) ++ [Op Rd r 0%Z (mp dflt r (Item Rd (ncell (hp s)) m true (Some 0) 0))]) (mir (with_hp s h3)) (des (with_hp s h3)) (held (with_hp s h3))) r (if okb then d else 0%Z)) as (Q1 & _ & Q3).
    cbn [kind] in *. rewrite Q1, Q3. split; auto. cbn [hp]. eapply at_wf2; [exact W1|eapply at_trans; [exact A2|exact A3|reflexivity]|]. cbn. lia.
  - set (sx := match r with Idx => _ | _ => _ end).
    assert (Hx : hp sx = h3 /\ held sx = held s) by (unfold sx; destruct r; auto). destruct Hx as [Hx1 Hx2].
    assert (X1 : items (hp sx) rw = Item Wr (ncell (hp s)) m true (Some 0) 0) by (rewrite Hx1; apply (at_item _ _ _ _ _ A2)).
    assert (X2 : value (hp sx) rw = l) by (rewrite Hx1; apply (at_val _ _ _ _ _ A2)).
    destruct (do_write_is size bits dflt auto sx r rw okb _ _ X1 X2) as (h' & E & A3). rewrite E.
    match goal with |- context [autop size bits auto ?q ?w ?e] => destruct (autop_hp size bits auto q w e) as (Q1 & _ & Q3) end.
    rewrite Q1, Q3. cbn [held hp]. split; auto. rewrite Hx1 in A3. eapply at_wf2; [exact W1|eapply at_trans; [exact A2|exact A3|reflexivity]|]. cbn. lia.
Qed.
Lemma tab_wait s k n v m a : wf2 (hp s) -> ~ free s n ->
  exists s', tab_access size bits dflt auto s k n v m a = Some (Waits s') /\ bus s' = bus s /\
    (held s Idx = true -> held s' Idx = true) /\ held s' Dat = held s Dat /\ wf2 (hp s').
Proof.
  intros HW NF. destruct (held s (Tab n)) eqn:HT.
  - unfold tab_access. rewrite HT. eexists. split; [reflexivity|]. auto.
  - rewrite tab_is by auto. destruct (prep_is s k n v m HW) as (W2 & NI & LT & (w & HV) & HK & HM & HOK & Hb & Hm & Hd & Hh).
    destruct (body_wait (prep s k n v m) n (nitem (hp s)) a W2 LT) as (s' & -> & B1 & B2 & B3 & B4).
    { rewrite Hh. cbn. unfold free in NF. destruct (held s Idx), (held s Dat); auto. destruct NF; auto. }
    eexists. split; [reflexivity|]. rewrite B1, B3, Hh, Hb. auto.
Qed.
Lemma free_dec s n : {free s n} + {~ free s n}.
Proof. unfold free. destruct (held s Idx), (held s Dat), (held s (Tab n)); auto; right; intros (H1 & H2 & H3); discriminate. Qed.

(** Every call ends or waits. *)
Lemma ustep_wf2 s u : wf2 (hp s) ->
  exists s', (ustep size bits dflt auto s u = Some (Waits s') \/ exists st v, ustep size bits dflt auto s u = Some (Finished s' st v)) /\ wf2 (hp s').
Proof.
  intros HW. destruct u as [k n v m a|r k v m okb d|r]; cbn [ustep].
  - destruct (free_dec s n) as [F|F].
    + destruct (idx_ok a) eqn:E.
      * destruct (tab_ok s k n v m a HW F E) as (s' & H & _ & _ & _ & W). exists s'. eauto.
      * destruct (tab_fail s k n v m a HW F E) as (s' & H & _ & _ & _ & _ & _ & W). exists s'. eauto.
    + destruct (tab_wait s k n v m a HW F) as (s' & H & _ & _ & _ & W). eauto.
  - destruct (held s r) eqn:E.
    + exists s. unfold direct. rewrite E. auto.
    + destruct (direct_is s r k v m okb d HW E) as (s' & st & z & H & _ & W). exists s'. eauto.
  - exists (with_held s r false). eauto.
Qed.
Lemma reach_wf2 s : reach size bits dflt auto s -> wf2 (hp s).
Proof.
  induction 1 as [m d|s u s' st v HR IH E|s u s' HR IH E|s c h HR IH HK E].
  - split; [apply wf0|]. intros i [].
  - destruct (ustep_wf2 s u IH) as (s1 & [E1|(st1 & v1 & E1)] & W); rewrite E in E1; congruence.
  - destruct (ustep_wf2 s u IH) as (s1 & [E1|(st1 & v1 & E1)] & W); rewrite E in E1; congruence.
  - cbn. eapply wf2_cstep; eauto.
Qed.

(** ** Locks that are not given back *)
Definition jam (s : sys) : Prop := held s Idx = true /\ held s Dat = true.
Lemma tab_jam s k n v m a : jam s -> exists s', tab_access size bits dflt auto s k n v m a = Some (Waits s') /\ bus s' = bus s /\ jam s'.
Proof.
  intros [HI HD]. destruct (held s (Tab n)) eqn:HT.
  - unfold tab_access. rewrite HT. eexists. split; [reflexivity|]. split; [reflexivity|now split].
  - rewrite tab_is by auto. unfold body. destruct (clone_some (hp (prep s k n v m)) (nitem (hp s))) as [h1 ->].
    assert (Hh : held (prep s k n v m) = updr (held s) (Tab n) true /\ bus (prep s k n v m) = bus s) by (unfold prep; destruct k; auto). destruct Hh as [Hh Hb].
    rewrite Hh. cbn [updr reg_eqb]. rewrite HI. eexists. split; [reflexivity|]. cbn [bus with_hp]. split; [exact Hb|]. split; cbn [held with_hp]; rewrite Hh; auto.
Qed.
Lemma autop_held s r z : held (autop size bits auto s r z) = held s.
Proof. apply autop_hp. Qed.
Lemma ustep_jam s u : jam s -> resets_locks u = false ->
  exists s', (ustep size bits dflt auto s u = Some (Waits s') \/ exists st v, ustep size bits dflt auto s u = Some (Finished s' st v)) /\ jam s' /\
    (needs_lock u = true -> ustep size bits dflt auto s u = Some (Waits s') /\ bus s' = bus s).
Proof.
  intros HJ HR. destruct u as [k n v m a|r k v m okb d|r]; cbn [ustep resets_locks needs_lock] in *.
  - destruct (tab_jam s k n v m a HJ) as (s' & H & B & J). exists s'. auto.
  - destruct (held s r) eqn:E.
    + exists s. unfold direct. rewrite E. auto.
    + unfold direct. rewrite E. cbn [new_item]. eexists. split; [right; do 2 eexists; reflexivity|]. destruct HJ as [J1 J2]. split.
      * unfold jam. destruct k; unfold do_read, do_write; rewrite !autop_held; destruct r; cbn [held with_hp]; auto.
      * destruct r; cbn in *; congruence.
  - exists (with_held s r false). destruct HJ. destruct r; try discriminate. split; [eauto|]. split; [split; cbn; auto|discriminate].
Qed.
Lemma later_jam s s' : later size bits dflt auto s s' -> jam s -> jam s'.
Proof.
  intros HL HJ. induction HL as [|s1 u s2 st v HL IH HR E|s1 u s2 HL IH HR E|s1 c h HL IH E]; auto.
  - destruct (ustep_jam s1 u IH HR) as (s3 & [E3|(st3 & v3 & E3)] & J & _); rewrite E in E3; congruence.
  - destruct (ustep_jam s1 u IH HR) as (s3 & [E3|(st3 & v3 & E3)] & J & _); rewrite E in E3; congruence.
Qed.
End I.
