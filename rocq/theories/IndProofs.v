(** Proofs about register item copies and indirect registers. *)
From Coq Require Import ZArith List Bool Arith Lia.
From Verif Require Import Prelude IndModel IndSpec.
Import ListNotations.
Local Open Scope nat_scope.

Definition wf (h : heap) : Prop :=
  (forall o, In (Ot o) (gmap h) -> False) /\ (forall i, vals (items h i) < ncell h).
Lemma wf0 : wf heap0.
Proof. split; [intros o []|]. intros i. cbn. lia. Qed.
Lemma in_gmap i l : existsb (obj_eqb (It i)) l = true <-> In (It i) l.
Proof.
  rewrite existsb_exists. split.
  - intros ([j|j] & H & E); cbn in E; [|discriminate]. apply Nat.eqb_eq in E. now subst.
  - intros H. exists (It i). split; auto. cbn. apply Nat.eqb_refl.
Qed.
Lemma not_in_gmap i l : existsb (obj_eqb (It i)) l = false <-> ~ In (It i) l.
Proof. rewrite <- in_gmap. now destruct (existsb _ l). Qed.
Lemma in_gmap_o i l : existsb (obj_eqb (Ot i)) l = true -> In (Ot i) l.
Proof. rewrite existsb_exists. intros ([j|j] & H & E); cbn in E; [discriminate|]. apply Nat.eqb_eq in E. now subst. Qed.

(** ** copy and clone, evaluated *)
Lemma copy_recent fuel h d s : In (It s) (gmap h) -> copy_item (S fuel) h d s = Some (set_gd h (gmap h) 0).
Proof. intros H. cbn [copy_item]. apply in_gmap in H. now rewrite H. Qed.
Lemma copy_new fuel h d s : ~ In (It s) (gmap h) ->
  copy_item (S (S fuel)) h d s = Some (Heap (upd (items h) d (items h s)) (cells h) (nitem h) (ncell h) (It s :: gmap h) (-1)).
Proof.
  intros H. change (copy_item (S (S fuel)) h d s) with
    (if existsb (obj_eqb (It s)) (gmap h) then Some (set_gd h (gmap h) 0)
      else
        match copy_item (S fuel) (set_gd h (It s :: gmap h) 1) d s with
        | None => None
        | Some h1 =>
            let h2 := set_item h1 d (items h1 s) in
            let d2 := (depth h2 - 1)%Z in
            Some (set_gd h2 (if (d2 =? 0)%Z then [] else gmap h2) d2)
        end). apply not_in_gmap in H. rewrite H. rewrite copy_recent by (cbn; now left). reflexivity.
Qed.
Lemma copy_other_is h o : wf h -> copy_other h o = set_gd h [] 0.
Proof. intros [H _]. unfold copy_other. destruct (existsb _ _) eqn:E; auto. apply in_gmap_o in E. destruct (H _ E). Qed.
Definition blank (c : nat) : item := Item Rd c None true None 0.
Lemma clone_recent h s : In (It s) (gmap h) -> clone h s =
  Some (Heap (upd (items h) (nitem h) (blank (ncell h))) (upd (cells h) (ncell h) [0%Z]) (S (nitem h)) (S (ncell h)) (gmap h) 0, nitem h).
Proof. intros H. unfold clone, new_item. rewrite copy_recent by exact H. reflexivity. Qed.
Lemma clone_new h s : ~ In (It s) (gmap h) -> s <> nitem h -> clone h s =
  Some (Heap (upd (upd (items h) (nitem h) (blank (ncell h))) (nitem h) (items h s)) (upd (cells h) (ncell h) [0%Z])
          (S (nitem h)) (S (ncell h)) (It s :: gmap h) (-1), nitem h).
Proof. intros H N. unfold clone, new_item. rewrite copy_new by exact H. cbn [items cells nitem ncell gmap]. now rewrite (upd_neq _ (nitem h) s). Qed.
Lemma clone_some h s : exists h', clone h s = Some (h', nitem h).
Proof.
  unfold clone, new_item. destruct (in_dec (fun a b : obj => ltac:(decide equality; apply Nat.eq_dec)) (It s) (gmap h)) as [H|H];
    [rewrite copy_recent by exact H|rewrite copy_new by exact H]; eauto.
Qed.
Lemma in_dec_g s l : {In (It s) l} + {~ In (It s) l}.
Proof. apply in_dec. decide equality; apply Nat.eq_dec. Qed.

(** ** Histories of copies *)
Lemma wf_gd h g d : wf h -> (forall o, In (Ot o) g -> False) -> wf (set_gd h g d).
Proof. intros [_ H] HG. split; auto. Qed.
Lemma wf_item h i x : wf h -> vals x < ncell h -> wf (set_item h i x).
Proof. intros [HG H] HX. split; auto. intros j. cbn. unfold upd. destruct (Nat.eqb j i); auto. Qed.
Lemma wf_cell h c l : wf h -> wf (set_cell h c l).
Proof. intros [HG H]. split; auto. Qed.
Lemma wf_new h : wf h -> wf (fst (new_item h)).
Proof. intros [HG H]. split; auto. intros j. cbn. unfold upd. destruct (Nat.eqb j _); cbn; [lia|]. specialize (H j). lia. Qed.
Lemma wf_copy h d s h' : wf h -> copy_item 3 h d s = Some h' -> wf h'.
Proof.
  intros HW E. destruct (in_dec_g s (gmap h)) as [H|H]; [rewrite copy_recent in E by auto|rewrite copy_new in E by auto]; injection E as <-.
  - apply wf_gd; auto. apply HW.
  - destruct HW as [HG HV]. split; [intros o [HO|HO]; [discriminate|eauto]|]. intros j. cbn. unfold upd. destruct (Nat.eqb j d); auto.
Qed.
Lemma wf_clone h s h' t : wf h -> clone h s = Some (h', t) -> wf h'.
Proof.
  intros HW E. unfold clone in E. pose proof (wf_new h HW) as HN. destruct (new_item h) as [h1 t1]. cbn [fst] in HN.
  destruct (copy_item 3 h1 t1 s) eqn:EC; [|discriminate]. injection E as <- <-. eapply wf_copy; eauto.
Qed.
Lemma wf_cstep h c h' : wf h -> cstep h c = Some h' -> wf h'.
Proof.
  intros HW E. destruct c; cbn [cstep] in E.
  - injection E as <-. now apply wf_new.
  - destruct (clone h s) as [[h1 t]|] eqn:EC; [|discriminate]. injection E as <-. eapply wf_clone; eauto.
  - eapply wf_copy; eauto.
  - injection E as <-. rewrite copy_other_is by auto. apply wf_gd; auto.
  - injection E as <-. now apply wf_cell.
  - injection E as <-. destruct HW as [HG HV]. split; auto. intros j. cbn. unfold upd. specialize (HV j). destruct (Nat.eqb j i); cbn; lia.
  - injection E as <-. apply wf_item; auto. apply HW.
Qed.
Lemma cstep_some h c : exists h', cstep h c = Some h'.
Proof.
  destruct c; cbn [cstep]; eauto.
  - destruct (clone_some h s) as [h1 ->]. eauto.
  - destruct (in_dec_g s (gmap h)) as [H|H]; [rewrite copy_recent by auto|rewrite copy_new by auto]; eauto.
Qed.
Lemma crun_app a : forall h b, crun h (a ++ b) = match crun h a with Some h1 => crun h1 b | None => None end.
Proof. induction a as [|c a IH]; intros h b; cbn [app crun]; auto. destruct (cstep h c); auto. Qed.
Lemma crun_some cs : forall h, exists h', crun h cs = Some h'.
Proof. induction cs as [|c cs IH]; intros h; cbn [crun]; eauto. destruct (cstep_some h c) as [h1 ->]. auto. Qed.

Lemma gmap_cstep h c h' l : wf h -> (forall i, In (It i) (gmap h) <-> In i l) -> cstep h c = Some h' ->
  forall i, In (It i) (gmap h') <-> In i (recent_step l c).
Proof.
  intros HW HL E i. destruct c; cbn [cstep recent_step] in *.
  - injection E as <-. apply HL.
  - destruct (in_dec_g s (gmap h)) as [H|H].
    + rewrite clone_recent in E by auto. injection E as <-. cbn [gmap]. rewrite HL. cbn. split; auto. intros [<-|HI]; auto. now apply HL.
    + unfold clone, new_item in E. rewrite copy_new in E by exact H. injection E as <-. cbn. rewrite HL. split; (intros [HI|HI]; [left; congruence|now right]).
  - destruct (in_dec_g s (gmap h)) as [H|H].
    + rewrite copy_recent in E by auto. injection E as <-. cbn [gmap set_gd]. rewrite HL. cbn. split; auto. intros [<-|HI]; auto. now apply HL.
    + rewrite copy_new in E by auto. injection E as <-. cbn. rewrite HL. split; (intros [HI|HI]; [left; congruence|now right]).
  - injection E as <-. rewrite copy_other_is by auto. cbn. tauto.
  - injection E as <-. apply HL.
  - injection E as <-. apply HL.
  - injection E as <-. apply HL.
Qed.
Lemma crun_inv cs : forall h l h', wf h -> (forall i, In (It i) (gmap h) <-> In i l) -> crun h cs = Some h' ->
  wf h' /\ forall i, In (It i) (gmap h') <-> In i (fold_left recent_step cs l).
Proof.
  induction cs as [|c cs IH]; intros h l h' HW HL E; cbn [crun fold_left] in *; [injection E as <-; auto|].
  destruct (cstep h c) as [h1|] eqn:E1; [|discriminate]. eapply IH; [eapply wf_cstep; eauto| |exact E]. eapply gmap_cstep; eauto.
Qed.

(** Two items with the same value list keep it. *)
Definition shared (h : heap) (s t : nat) : Prop := vals (items h s) = vals (items h t) /\ s < nitem h /\ t < nitem h.
Lemma shared_step h c h' s t : wf h -> shared h s t -> keeps_list s c -> keeps_list t c -> cstep h c = Some h' -> shared h' s t.
Proof.
  intros HW (HV & HS & HT) KS KT E. destruct c as [|q|d q|o|i k z|i l|i k m st e r]; cbn [cstep keeps_list] in *.
  - injection E as <-. unfold shared. cbn. rewrite !upd_neq by lia. repeat split; auto.
  - destruct (in_dec_g q (gmap h)) as [H|H].
    + rewrite clone_recent in E by auto. injection E as <-. unfold shared. cbn. rewrite !upd_neq by lia. repeat split; auto.
    + unfold clone, new_item in E. rewrite copy_new in E by exact H. injection E as <-. unfold shared. cbn. rewrite !upd_neq by lia. repeat split; auto.
  - destruct (in_dec_g q (gmap h)) as [H|H].
    + rewrite copy_recent in E by auto. injection E as <-. repeat split; auto.
    + rewrite copy_new in E by auto. injection E as <-. unfold shared. cbn. rewrite !upd_neq by auto. repeat split; auto.
  - injection E as <-. rewrite copy_other_is by auto. repeat split; auto.
  - injection E as <-. repeat split; auto.
  - injection E as <-. unfold shared. cbn. rewrite !upd_neq by auto. repeat split; auto.
  - injection E as <-. unfold shared. cbn. split; auto. unfold upd. destruct (Nat.eqb s i) eqn:E1, (Nat.eqb t i) eqn:E2; cbn; auto;
      try (apply Nat.eqb_eq in E1; subst); try (apply Nat.eqb_eq in E2; subst); auto.
Qed.
Lemma shared_run cs : forall h h' s t, wf h -> shared h s t -> Forall (keeps_list s) cs -> Forall (keeps_list t) cs -> crun h cs = Some h' -> shared h' s t.
Proof.
  induction cs as [|c cs IH]; intros h h' s t HW HS F1 F2 E; cbn [crun] in E; [now injection E as <-|].
  destruct (cstep h c) as [h1|] eqn:E1; [|discriminate]. apply Forall_cons_iff in F1, F2. destruct F1 as [K1 F1], F2 as [K2 F2].
  eapply (IH h1); eauto; [eapply wf_cstep; eauto|eapply shared_step; eauto].
Qed.
