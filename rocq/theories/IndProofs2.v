(** Proofs about indirect registers. *)
From Coq Require Import ZArith List Bool Arith Lia.
From Verif Require Import Prelude IndModel IndSpec IndProofs.
Import ListNotations.
Local Open Scope nat_scope.

Definition wf2 (h : heap) : Prop := wf h /\ forall i, In (It i) (gmap h) -> i < nitem h.

(** [h'] is [h] but for item [i], which is [x], and its value list, which is [l]. *)
Record at_ (h h' : heap) (i : nat) (x : item) (l : list Z) : Prop := {
  at_item : items h' i = x;
  at_items : forall j, j <> i -> items h' j = items h j;
  at_cell : cells h' (vals x) = l;
  at_cells : forall c, c <> vals x -> cells h' c = cells h c;
  at_n : nitem h' = nitem h;
  at_c : ncell h' = ncell h;
  at_g : gmap h' = gmap h
}.
Lemma at_refl h i : at_ h h i (items h i) (value h i).
Proof. now split. Qed.
Lemma at_set h h' i x l k m s e r : at_ h h' i x l ->
  at_ h (set_item h' i (Item k (vals x) m s e r)) i (Item k (vals x) m s e r) l.
Proof. intros [H1 H2 H3 H4 H5 H6 H7]. split; cbn; auto; [apply upd_eq|]. intros j Hj. rewrite upd_neq; auto. Qed.
Lemma at_put h h' i x l z : at_ h h' i x l -> at_ h (put0 h' i z) i x (set_nth l 0 z).
Proof.
  intros [H1 H2 H3 H4 H5 H6 H7]. unfold put0, value. rewrite H1, H3. split; cbn; auto; [apply upd_eq|]. intros c Hc. rewrite upd_neq; auto.
Qed.
Lemma at_val h h' i x l : at_ h h' i x l -> value h' i = l.
Proof. intros H. unfold value. rewrite (at_item _ _ _ _ _ H). apply (at_cell _ _ _ _ _ H). Qed.
Lemma at_trans h h1 h2 i x x2 l l2 : at_ h h1 i x l -> at_ h1 h2 i x2 l2 -> vals x2 = vals x -> at_ h h2 i x2 l2.
Proof.
  intros A B E. destruct A as [A1 A2 A3 A4 A5 A6 A7], B as [B1 B2 B3 B4 B5 B6 B7]. split; auto; try congruence.
  - intros j Hj. rewrite B2, A2; auto.
  - intros c Hc. rewrite B4, A4; auto. congruence.
Qed.
Definition mp (dflt : reg -> nat) (r : reg) (x : item) : nat :=
  match imap x with Some m => m | None => dflt (match r with Dat => Idx | _ => r end) end.
Lemma at_check dflt h h' r i x l : at_ h h' i x l ->
  at_ h (check_access dflt h' r i) i (Item (kind x) (vals x) (Some (mp dflt r x)) (ok x) (elem x) (rest x)) l.
Proof. intros H. unfold check_access. rewrite (at_item _ _ _ _ _ H). now apply (at_set h h' i x l). Qed.
Lemma at_ok h h' i x l b : at_ h h' i x l ->
  at_ h (set_ok h' i b) i (Item (kind x) (vals x) (imap x) b (elem x) (rest x)) l.
Proof. intros H. unfold set_ok. rewrite (at_item _ _ _ _ _ H). now apply (at_set h h' i x l). Qed.

Section I.
Context (size : nat) (bits : reg -> Z) (dflt : reg -> nat) (auto : bool).
Lemma autop_hp (s : sys) r z : hp (autop size bits auto s r z) = hp s /\ bus (autop size bits auto s r z) = bus s /\ held (autop size bits auto s r z) = held s.
Proof. unfold autop, predict. destruct auto; auto. destruct r; cbn; auto. destruct (_ <=? _)%Z; auto. Qed.

Lemma do_write_is (s : sys) r i (okb : bool) x l : items (hp s) i = x -> value (hp s) i = l ->
  let v := mask bits r (head l) in
  exists h', do_write size bits dflt auto s r i okb =
    autop size bits auto (Sys h' (bus s ++ [Op (kind x) r v (mp dflt r x)]) (mir s) (des s) (held s)) r v /\
    at_ (hp s) h' i (Item (kind x) (vals x) (Some (mp dflt r x)) okb (elem x) (rest x)) (set_nth l 0 v).
Proof.
  intros <- <-. cbn zeta. unfold do_write.
  set (h1 := check_access dflt (hp s) r i). pose proof (at_check dflt _ _ r i _ _ (at_refl (hp s) i)) as A1. fold h1 in A1.
  unfold val0. rewrite (at_val _ _ _ _ _ A1). set (v := mask bits r (head (value (hp s) i))).
  pose proof (at_put _ _ _ _ _ v A1) as A2. pose proof (at_ok _ _ _ _ _ true A2) as A3.
  rewrite (at_item _ _ _ _ _ A3). cbn [kind the_map imap]. exists (set_ok (set_ok (put0 h1 i v) i true) i okb). split; [reflexivity|].
  exact (at_ok _ _ _ _ _ okb A3).
Qed.
Lemma do_read_is (s : sys) r i (okb : bool) d x l : items (hp s) i = x -> value (hp s) i = l -> l <> [] ->
  let z := if okb then d else 0%Z in
  exists h', do_read size bits dflt auto s r i okb d =
    autop size bits auto (Sys h' (bus s ++ [Op (kind x) r 0%Z (mp dflt r x)]) (mir s) (des s) (held s)) r z /\
    at_ (hp s) h' i (Item (kind x) (vals x) (Some (mp dflt r x)) okb (elem x) (rest x)) (set_nth l 0 z).
Proof.
  intros <- <- HL. cbn zeta. unfold do_read.
  pose proof (at_check dflt _ _ r i _ _ (at_refl (hp s) i)) as A1. pose proof (at_ok _ _ _ _ _ true A1) as A2.
  set (h1 := set_ok (check_access dflt (hp s) r i) i true) in *. rewrite (at_item _ _ _ _ _ A2). cbn [kind the_map imap].
  pose proof (at_ok _ _ _ _ _ okb A2) as A3. pose proof (at_put _ _ _ _ _ (if okb then d else 0%Z) A3) as A4.
  unfold val0 at 1. rewrite (at_val _ _ _ _ _ A4).
  replace (head (set_nth (value (hp s) i) 0 (if okb then d else 0%Z))) with (if okb then d else 0%Z) by (destruct (value (hp s) i); [congruence|reflexivity]).
  eexists. split; [reflexivity|]. exact A4.
Qed.

(** The first part: cloning the item, and the index write *)
Lemma set_nth_1 z y : set_nth [z] 0 y = [y]. Proof. reflexivity. Qed.
Definition item_of (k : access) (c : nat) (m : option nat) (n : nat) : item := Item k c m true (Some (2 + n)) 0.

Definition pp (m d : reg -> Z) (r : reg) (z : Z) : (reg -> Z) * (reg -> Z) :=
  if auto then
    match r with
    | Dat => if (Z.of_nat size <=? d Idx)%Z then (m, d)
             else let t := Tab (Z.to_nat (d Idx)) in (updr m t (mask bits t z), updr d t (mask bits t z))
    | _ => (updr m r (mask bits r z), updr d r (mask bits r z))
    end
  else (m, d).
Lemma autop_is h b m d k r z : autop size bits auto (Sys h b m d k) r z = Sys h b (fst (pp m d r z)) (snd (pp m d r z)) k.
Proof. unfold autop, pp, predict, predict_reg. destruct auto; auto. destruct r; cbn; auto. destruct (_ <=? _)%Z; reflexivity. Qed.
Lemma at_other h h' i x l j : at_ h h' i x l -> j <> i -> vals (items h j) <> vals x -> items h' j = items h j /\ value h' j = value h j.
Proof. intros A Hj Hv. split; [apply (at_items _ _ _ _ _ A); auto|]. unfold value. rewrite (at_items _ _ _ _ _ A) by auto. now apply (at_cells _ _ _ _ _ A). Qed.
Lemma at_share h h' i x l j : at_ h h' i x l -> j <> i -> vals (items h j) = vals x -> items h' j = items h j /\ value h' j = l.
Proof. intros A Hj Hv. split; [apply (at_items _ _ _ _ _ A); auto|]. unfold value. rewrite (at_items _ _ _ _ _ A) by auto. rewrite Hv. apply (at_cell _ _ _ _ _ A). Qed.

(** The index write *)
Definition idx_part (s : sys) (n rw : nat) (a : answers) (s3 : sys) : Prop :=
  let X := items (hp s) rw in let iv := mask bits Idx (Z.of_nat n) in
  bus s3 = bus s ++ [Op Wr Idx iv (mp dflt Idx X)] /\ mir s3 = fst (pp (mir s) (des s) Idx iv) /\ des s3 = snd (pp (mir s) (des s) Idx iv) /\
  items (hp s3) rw = X /\ value (hp s3) rw = [iv] /\ gmap (hp s3) = It rw :: gmap (hp s) /\
  nitem (hp s3) = S (nitem (hp s)) /\ ncell (hp s3) = S (ncell (hp s)) /\ wf (hp s3) /\
  forall r, held s3 r = match r with Idx | Dat => true | _ => held s r end.
Lemma body_idx s n rw a w : wf (hp s) -> ~ In (It rw) (gmap (hp s)) -> rw < nitem (hp s) -> value (hp s) rw = [w] ->
  held s Idx = false -> held s Dat = false ->
  exists s3, idx_part s n rw a s3 /\ forall R,
    (if negb (idx_ok a) then Some (Finished s3 true 0%Z)
        else
          let s4 := if other_copy a then with_hp s3 (copy_other (hp s3) 0) else s3 in
          match clone (hp s4) rw with
          | None => None
          | Some (h5, c2) =>
              let x2 := items h5 c2 in
              let s5 := with_hp s4 (set_item h5 c2 (Item (kind x2) (vals x2) (imap x2) (ok x2) (Some 1) (rest x2))) in
              let s6 :=
                match kind (items (hp s5) rw) with
                | Wr => do_write size bits dflt auto s5 Dat c2 (dat_ok a)
                | Rd =>
                    let s7 := do_read size bits dflt auto s5 Dat c2 (dat_ok a) (rdata a) in
                    with_hp s7 (put0 (hp s7) rw (val0 (hp s7) c2))
                end in
              let s8 := with_held (with_held s6 Idx false) Dat false in
              Some (Finished (with_hp s8 (set_ok (hp s8) rw (ok (items (hp s8) c2)))) true 0%Z)
          end) = R -> body size bits dflt auto s n rw a = R.
Proof.
  intros HW HG HR HV HI HD. unfold body. rewrite clone_new by (auto; lia).
  set (h1 := Heap _ _ _ _ _ _). set (t := nitem (hp s)).
  assert (HX : items h1 t = items (hp s) rw) by (cbn; apply upd_eq).
  assert (Hr : items h1 rw = items (hp s) rw) by (cbn; rewrite !upd_neq by (unfold t; lia); reflexivity).
  assert (Hc : vals (items (hp s) rw) < ncell (hp s)) by apply HW.
  assert (HV1 : value h1 t = [w]) by (unfold value; rewrite HX; cbn; rewrite upd_neq by lia; exact HV).
  rewrite HX. pose proof (at_refl h1 t) as A0. rewrite HX, HV1 in A0.
  set (X := items (hp s) rw) in *. 
  pose proof (at_set _ _ _ _ _ Wr (imap X) (ok X) (Some 0) (rest X) A0) as A1. pose proof (at_put _ _ _ _ _ (Z.of_nat n) A1) as A2.
  set (h2 := put0 _ t (Z.of_nat n)) in *. rewrite HI, HD.
  set (s2 := with_held (with_held (with_hp s h2) Idx true) Dat true).
  destruct (do_write_is s2 Idx t (idx_ok a) _ _ (at_item _ _ _ _ _ A2) (at_val _ _ _ _ _ A2)) as (h3 & E & A3).
  cbn [set_nth head] in E, A3. rewrite E. cbn [kind] in *.
  exists (autop size bits auto (Sys h3 (bus s2 ++ [Op Wr Idx (mask bits Idx (Z.of_nat n)) (mp dflt Idx (Item Wr (vals X) (imap X) (ok X) (Some 0) (rest X)))]) (mir s2) (des s2) (held s2)) Idx (mask bits Idx (Z.of_nat n))).
  split; [|intros R HRR; exact HRR].
  assert (A4 : at_ h1 h3 t (Item Wr (vals X) (Some (mp dflt Idx (Item Wr (vals X) (imap X) (ok X) (Some 0) (rest X)))) (idx_ok a) (Some 0) (rest X)) [mask bits Idx (Z.of_nat n)])
    by (eapply at_trans; [exact A2|exact A3|reflexivity]).
  destruct (at_share _ _ _ _ _ rw A4) as [B1 B2]; [unfold t; lia|rewrite Hr; reflexivity|].
  rewrite autop_is. unfold idx_part. cbn [bus mir des hp held s2 with_held with_hp]. fold X. repeat split; auto.
  - rewrite B1. exact Hr.
  - rewrite (at_g _ _ _ _ _ A4). reflexivity.
  - rewrite (at_n _ _ _ _ _ A4). reflexivity.
  - rewrite (at_c _ _ _ _ _ A4). reflexivity.
  - intros o HO. rewrite (at_g _ _ _ _ _ A4) in HO. cbn in HO. destruct HO as [HO|HO]; [discriminate|]. eapply (proj1 HW); eauto.
  - intros j. rewrite (at_c _ _ _ _ _ A4). cbn [ncell h1]. destruct (Nat.eq_dec j t) as [->|Hj].
    + rewrite (at_item _ _ _ _ _ A4). cbn. lia.
    + rewrite (at_items _ _ _ _ _ A4) by auto. cbn. rewrite !upd_neq by (fold t; auto). pose proof (proj2 HW j). lia.
  - intros [| |i]; cbn; reflexivity.
Qed.

(** The data access *)
Definition dat_op (k : access) (n : nat) (m : nat) (other : bool) : op :=
  if other then Op k Dat (match k with Wr => mask bits Dat (mask bits Idx (Z.of_nat n)) | Rd => 0%Z end) m
  else Op Rd Dat 0%Z (dflt Idx).
Definition dat_val (k : access) (n : nat) (a : answers) : Z :=
  match k with
  | Wr => if other_copy a then mask bits Dat (mask bits Idx (Z.of_nat n)) else 0%Z
  | Rd => if dat_ok a then rdata a else 0%Z
  end.
Definition rw_val (k : access) (n : nat) (a : answers) : Z :=
  match k with
  | Wr => if other_copy a then mask bits Dat (mask bits Idx (Z.of_nat n)) else mask bits Idx (Z.of_nat n)
  | Rd => if dat_ok a then rdata a else 0%Z
  end.
Lemma mask_0 r : mask bits r 0 = 0%Z. Proof. reflexivity. Qed.
Lemma body_dat s n rw a w k m : wf (hp s) -> ~ In (It rw) (gmap (hp s)) -> rw < nitem (hp s) -> value (hp s) rw = [w] ->
  held s Idx = false -> held s Dat = false -> idx_ok a = true -> kind (items (hp s) rw) = k -> imap (items (hp s) rw) = Some m ->
  exists s', body size bits dflt auto s n rw a = Some (Finished s' true 0%Z) /\
    bus s' = bus s ++ [Op Wr Idx (mask bits Idx (Z.of_nat n)) m; dat_op k n m (other_copy a)] /\
    (let md := pp (mir s) (des s) Idx (mask bits Idx (Z.of_nat n)) in
     mir s' = fst (pp (fst md) (snd md) Dat (dat_val k n a)) /\ des s' = snd (pp (fst md) (snd md) Dat (dat_val k n a))) /\
    val0 (hp s') rw = rw_val k n a /\ ok (items (hp s') rw) = dat_ok a /\
    (forall r, held s' r = match r with Idx | Dat => false | _ => held s r end) /\
    (wf2 (hp s) -> wf2 (hp s')).
Proof.
  intros HW HG HR HV HI HD HO HK HM. destruct (body_idx s n rw a w HW HG HR HV HI HD) as (s3 & IP & HB).
  destruct IP as (Ibus & Imir & Ides & Iit & Ival & Igm & Init & Incell & Iwf & Iheld). rewrite HO in HB. cbn [negb] in HB.
  assert (Hmp : mp dflt Idx (items (hp s) rw) = m) by (unfold mp; now rewrite HM). rewrite Hmp in Ibus.
  set (X := items (hp s) rw) in *. set (iv := mask bits Idx (Z.of_nat n)) in *.
  set (s4 := if other_copy a then with_hp s3 (copy_other (hp s3) 0) else s3) in *.
  assert (F4 : items (hp s4) = items (hp s3) /\ cells (hp s4) = cells (hp s3) /\ nitem (hp s4) = nitem (hp s3) /\ ncell (hp s4) = ncell (hp s3) /\
     gmap (hp s4) = (if other_copy a then [] else gmap (hp s3)) /\ bus s4 = bus s3 /\ mir s4 = mir s3 /\ des s4 = des s3 /\ held s4 = held s3).
  { unfold s4. destruct (other_copy a); [|repeat split; auto]. rewrite copy_other_is by auto. cbn. repeat split; auto. }
  destruct F4 as (Fi & Fc & Fn & Fnc & Fg & Fb & Fm & Fd & Fh).
  assert (HC : exists h5, clone (hp s4) rw = Some (h5, nitem (hp s4)) /\
    items h5 (nitem (hp s4)) = (if other_copy a then X else blank (ncell (hp s4))) /\ 
    value h5 (nitem (hp s4)) = (if other_copy a then [iv] else [0%Z]) /\ items h5 rw = X /\ value h5 rw = [iv] /\
    nitem h5 = S (nitem (hp s4)) /\ ncell h5 = S (ncell (hp s4)) /\ gmap h5 = It rw :: (if other_copy a then [] else gmap (hp s)) /\ 
    (forall j, vals (items h5 j) < ncell h5)).
  { assert (HX : vals X < ncell (hp s4)) by (rewrite Fnc, <- Iit; apply Iwf).
    assert (Hrn : rw <> nitem (hp s4)) by (rewrite Fn, Init; lia).
    destruct (other_copy a) eqn:EO.
    - rewrite clone_new by (auto; rewrite Fg; cbn; auto). eexists. split; [reflexivity|].
      assert (E1 : items (hp s4) rw = X) by (rewrite Fi; exact Iit).
      assert (E2 : cells (hp s4) (vals X) = [iv]) by (rewrite Fc; unfold value in Ival; rewrite Iit in Ival; exact Ival).
      unfold value. cbn [items cells nitem ncell gmap]. rewrite upd_eq, !(upd_neq _ (nitem (hp s4)) rw) by auto. rewrite E1.
      rewrite !upd_neq by lia. rewrite E2. repeat split; auto; [now rewrite Fg|].
      intros j. unfold upd. destruct (Nat.eqb j _); [exact (Nat.lt_lt_succ_r _ _ HX)|]. rewrite Fi, Fnc. pose proof (proj2 Iwf j). lia.
    - rewrite clone_recent by (rewrite Fg, Igm; now left). eexists. split; [reflexivity|].
      assert (E1 : items (hp s4) rw = X) by (rewrite Fi; exact Iit).
      assert (E2 : cells (hp s4) (vals X) = [iv]) by (rewrite Fc; unfold value in Ival; rewrite Iit in Ival; exact Ival).
      unfold value. cbn [items cells nitem ncell gmap]. rewrite upd_eq, !(upd_neq _ (nitem (hp s4)) rw) by auto. rewrite E1. cbn [blank vals].
      rewrite upd_eq, upd_neq by lia. rewrite E2. repeat split; auto; try (rewrite Fg, Igm; reflexivity).
      intros j. unfold upd. destruct (Nat.eqb j _); [apply Nat.lt_succ_diag_r|]. rewrite Fi, Fnc. pose proof (proj2 Iwf j). lia. }
  destruct HC as (h5 & EC & Hi5 & Hv5 & Hr5 & Hrv5 & Hn5 & Hc5 & Hg5 & Hw5). rewrite EC in HB. set (c2 := nitem (hp s4)) in *.
  assert (Hrc : rw <> c2) by (rewrite Fn, Init; lia).
  set (X2 := items h5 c2) in *. pose proof (at_set _ _ _ _ _ (kind X2) (imap X2) (ok X2) (Some 1) (rest X2) (at_refl h5 c2)) as A5. fold X2 in A5.
  set (h6 := set_item h5 c2 _) in *. cbn zeta in HB.
  assert (Hk6 : items (hp (with_hp s4 h6)) rw = X) by (cbn [hp with_hp]; rewrite (at_items _ _ _ _ _ A5); auto). rewrite Hk6, HK in HB.
  (* the data access *)
  assert (HS : exists s6 h7, (match k with Wr => do_write size bits dflt auto (with_hp s4 h6) Dat c2 (dat_ok a)
       | Rd => let s7 := do_read size bits dflt auto (with_hp s4 h6) Dat c2 (dat_ok a) (rdata a) in with_hp s7 (put0 (hp s7) rw (val0 (hp s7) c2)) end) = s6 /\
       hp s6 = h7 /\ bus s6 = bus s3 ++ [dat_op k n m (other_copy a)] /\ mir s6 = fst (pp (mir s3) (des s3) Dat (dat_val k n a)) /\
       des s6 = snd (pp (mir s3) (des s3) Dat (dat_val k n a)) /\ held s6 = held s3 /\
       items h7 rw = X /\ val0 h7 rw = rw_val k n a /\ ok (items h7 c2) = dat_ok a /\ nitem h7 = nitem h5 /\ gmap h7 = gmap h5 /\ ncell h7 = ncell h5 /\
       (forall j, vals (items h7 j) < ncell h7)).
  { assert (Hval : value (hp (with_hp s4 h6)) c2 = value h5 c2) by (cbn [hp with_hp]; apply (at_val _ _ _ _ _ A5)).
    assert (Hsh : forall h' x l, at_ (hp (with_hp s4 h6)) h' c2 x l -> vals x = vals X2 ->
        items h' rw = X /\ value h' rw = (if other_copy a then l else [iv]) /\ nitem h' = nitem h5 /\ gmap h' = gmap h5 /\ ncell h' = ncell h5 /\ (forall j, vals (items h' j) < ncell h')).
    { intros h' x l A HVX. assert (AT : at_ h5 h' c2 x l) by (eapply at_trans; [exact A5|exact A|exact HVX]).
      assert (HVr : vals (items h5 rw) = vals X2 <-> other_copy a = true).
      { rewrite Hr5, Hi5. destruct (other_copy a); [tauto|]. cbn [blank vals]. split; [|discriminate]. intros Q.
        assert (vals X < ncell (hp s4)) by (rewrite Fnc, <- Iit; apply Iwf). lia. }
      repeat split; try apply AT.
      - rewrite (at_items _ _ _ _ _ AT) by auto. exact Hr5.
      - destruct (other_copy a) eqn:EO.
        + apply (at_share _ _ _ _ _ rw AT); auto. rewrite HVX. tauto.
        + rewrite <- Hrv5. apply (at_other _ _ _ _ _ rw AT); auto. rewrite HVX. intuition congruence.
      - intros j. rewrite (at_c _ _ _ _ _ AT). destruct (Nat.eq_dec j c2) as [->|Hj]; [rewrite (at_item _ _ _ _ _ AT), HVX; apply Hw5|rewrite (at_items _ _ _ _ _ AT) by auto; apply Hw5]. }
    pose proof (at_item _ _ _ _ _ A5) as Hit. destruct k.
    - (* read *)
      destruct (do_read_is (with_hp s4 h6) Dat c2 (dat_ok a) (rdata a) _ _ Hit Hval) as (h7 & E7 & A7); [rewrite Hv5; destruct (other_copy a); discriminate|].
      rewrite E7, autop_is. cbn [hp with_hp bus mir des held]. destruct (Hsh _ _ _ A7 eq_refl) as (S1 & S2 & S3 & S4 & S5 & S6).
      pose proof (at_val _ _ _ _ _ A7) as V7. unfold val0. rewrite V7, Hv5.
      replace (head (set_nth (if other_copy a then [iv] else [0%Z]) 0 (if dat_ok a then rdata a else 0%Z))) with (if dat_ok a then rdata a else 0%Z) by (destruct (other_copy a); reflexivity).
      eexists _, _. split; [reflexivity|]. cbn [hp with_hp bus mir des held]. split; [reflexivity|].
      rewrite Fb, Fm, Fd, Fh. repeat split; auto.
      + f_equal. f_equal. unfold dat_op. rewrite Hi5. cbn [kind]. destruct (other_copy a); [|reflexivity]. rewrite HK. f_equal. unfold mp. cbn [imap]. rewrite HM. reflexivity.
      + unfold put0, value. cbn [items cells set_cell]. rewrite S1, upd_eq. rewrite Hv5 in S2. unfold value in S2. rewrite S1 in S2. rewrite S2. destruct (other_copy a); reflexivity.
      + cbn [put0 set_cell items]. rewrite (at_item _ _ _ _ _ A7). reflexivity.
    - (* write *)
      destruct (do_write_is (with_hp s4 h6) Dat c2 (dat_ok a) _ _ Hit Hval) as (h7 & E7 & A7).
      rewrite E7, autop_is. destruct (Hsh _ _ _ A7 eq_refl) as (S1 & S2 & S3 & S4 & S5 & S6).
      eexists _, _. split; [reflexivity|]. cbn [hp with_hp bus mir des held]. split; [reflexivity|].
      rewrite Fb, Fm, Fd, Fh, Hv5. assert (HDV : mask bits Dat (head (if other_copy a then [iv] else [0%Z])) = dat_val Wr n a).
      { unfold dat_val. destruct (other_copy a); cbn [head]; [reflexivity|apply mask_0]. } rewrite HDV. repeat split; auto.
      + f_equal. f_equal. unfold dat_op, dat_val. rewrite Hi5. cbn [kind]. destruct (other_copy a); [|reflexivity]. rewrite HK. f_equal. unfold mp. cbn [imap]. rewrite HM. reflexivity.
      + unfold val0. rewrite S2. unfold rw_val. destruct (other_copy a) eqn:EO; [|reflexivity]. rewrite Hv5, HDV. unfold dat_val. now rewrite EO.
      + rewrite (at_item _ _ _ _ _ A7). reflexivity. }
  destruct HS as (s6 & h7 & E6 & Eh & Sb & Sm & Sd & Shd & Si & Sv & Sok & Sn & Sg & Sc & Sw).
  eexists. split; [apply HB; cbv zeta in E6; rewrite E6; reflexivity|]. cbn [bus with_hp with_held hp mir des held]. rewrite Eh.
  split; [rewrite Sb, Ibus, <- app_assoc; reflexivity|]. split; [rewrite Sm, Sd, Imir, Ides; auto|].
  pose proof (at_ok _ _ _ _ _ (ok (items h7 c2)) (at_refl h7 rw)) as A8. set (h8 := set_ok h7 rw _) in *.
  split; [unfold val0; rewrite (at_val _ _ _ _ _ A8); exact Sv|]. split; [rewrite (at_item _ _ _ _ _ A8); exact Sok|]. split.
  - intros [| |i]; cbn; auto; rewrite Shd; apply Iheld.
  - intros [_ HWI]. split; [split|].
    + intros o. rewrite (at_g _ _ _ _ _ A8), Sg, Hg5. intros [Q|Q]; [discriminate|]. destruct (other_copy a); [destruct Q|]. eapply (proj1 HW); eauto.
    + intros j. rewrite (at_c _ _ _ _ _ A8). destruct (Nat.eq_dec j rw) as [->|Hj]; [rewrite (at_item _ _ _ _ _ A8)|rewrite (at_items _ _ _ _ _ A8) by auto]; apply Sw.
    + intros j. rewrite (at_g _ _ _ _ _ A8), Sg, Hg5, (at_n _ _ _ _ _ A8), Sn, Hn5, Fn, Init. intros [Q|Q]; [injection Q as <-; lia|]. destruct (other_copy a); [destruct Q|]. specialize (HWI _ Q). lia.
Qed.
End I.
