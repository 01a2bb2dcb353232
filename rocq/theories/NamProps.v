(** C234: full names in a register model. *)
From Coq Require Import String Ascii List.
From Verif Require Import NamModel NamSpec.
Import ListNotations.
Open Scope string_scope.

Lemma app_nil_s s : s ++ "" = s.
Proof. induction s as [|c s IH]; cbn; [reflexivity|now rewrite IH]. Qed.
Lemma app_assoc_s a b c : (a ++ b) ++ c = a ++ b ++ c.
Proof. induction a as [|x a IH]; cbn; [reflexivity|now rewrite IH]. Qed.
Lemma concat_snoc p n : p <> [] -> String.concat "." (p ++ [n])%list = String.concat "." p ++ "." ++ n.
Proof.
  induction p as [|x p IH]; [congruence|]. intros _. destruct p as [|y p]; [reflexivity|].
  change (String.concat "." ((x :: y :: p) ++ [n])%list) with (x ++ "." ++ String.concat "." ((y :: p) ++ [n])%list).
  rewrite IH by discriminate. change (String.concat "." (x :: y :: p)) with (x ++ "." ++ String.concat "." (y :: p)).
  now rewrite !app_assoc_s.
Qed.
Lemma snoc_ne {A} (p : list A) n : (p ++ [n])%list <> [].
Proof. now destruct p. Qed.

Lemma block_ok b p : block_path b p -> p <> [] /\ block_name b = String.concat "." p.
Proof.
  induction 1 as [n|n b p H [N E]]; [split; [discriminate|reflexivity]|]. split; [apply snoc_ne|]. cbn [block_name]. now rewrite E, concat_snoc.
Qed.
Lemma opt_ok b p n : opt_path b p -> in_block b n = String.concat "." (p ++ [n])%list.
Proof. intros [|c q H]; [reflexivity|]. destruct (block_ok _ _ H) as [N E]. cbn [in_block]. now rewrite E, concat_snoc. Qed.
Lemma file_ok f p : file_path f p -> p <> [] /\ file_name f = String.concat "." p.
Proof.
  induction 1 as [n b p H|n f b p H [N E]]; (split; [apply snoc_ne|]); cbn [file_name]; [now apply opt_ok|]. now rewrite E, concat_snoc.
Qed.
Lemma reg_ok r p : reg_path r p -> p <> [] /\ reg_name r = String.concat "." p.
Proof.
  intros [n b q H|n f b q H]; (split; [apply snoc_ne|]); cbn [reg_name]; [now apply opt_ok|]. destruct (file_ok _ _ H) as [N E]. now rewrite E, concat_snoc.
Qed.
(** get_full_name() of every object is the names on the way to it joined with dots. *)
Theorem C234_full_name x p : path x p -> full_name x = String.concat "." p.
Proof.
  intros [b q H|f q H|r q H|n r q H|n b q H|n b q H]; cbn [full_name].
  - now apply block_ok.
  - now apply file_ok.
  - now apply reg_ok.
  - destruct (reg_ok _ _ H) as [N E]. now rewrite E, concat_snoc.
  - now apply opt_ok.
  - now apply opt_ok.
Qed.
Print Assumptions C234_full_name.

Fixpoint block_ex (b : block) : exists p, block_path b p.
Proof. destruct b as [n [b|]]; [destruct (block_ex b) as [p H]; exists (p ++ [n])%list; constructor; exact H|eexists; constructor]. Qed.
Lemma opt_ex b : exists p, opt_path b p.
Proof. destruct b as [b|]; [destruct (block_ex b) as [p H]; eexists; constructor; eassumption|eexists; constructor]. Qed.
Fixpoint file_ex (f : rfile) : exists p, file_path f p.
Proof.
  destruct f as [n [f|] b]; [destruct (file_ex f) as [p H]; eexists; apply fp_file; eassumption|].
  destruct (opt_ex b) as [p H]. eexists. apply fp_block. eassumption.
Qed.
Lemma reg_ex r : exists p, reg_path r p.
Proof.
  destruct r as [n [f|] b]; [destruct (file_ex f) as [p H]; eexists; apply rp_file; eassumption|].
  destruct (opt_ex b) as [p H]. eexists. apply rp_block. eassumption.
Qed.
Lemma block_det b p : block_path b p -> forall q, block_path b q -> q = p.
Proof. induction 1 as [n|n b p H IH]; intros q Q; inversion Q; subst; [reflexivity|]. f_equal. auto. Qed.
Lemma opt_det b p q : opt_path b p -> opt_path b q -> q = p.
Proof. intros [|c r H] Q; inversion Q; subst; [reflexivity|]. eapply block_det; eassumption. Qed.
Lemma file_det f p : file_path f p -> forall q, file_path f q -> q = p.
Proof. induction 1 as [n b p H|n f b p H IH]; intros q Q; inversion Q; subst; f_equal; [eapply opt_det; eassumption|auto]. Qed.
Lemma reg_det r p q : reg_path r p -> reg_path r q -> q = p.
Proof. intros [n b r' H|n f b r' H] Q; inversion Q; subst; f_equal; [eapply opt_det|eapply file_det]; eassumption. Qed.
(** There is exactly one way to every object. *)
Theorem C234_path x : exists p, path x p /\ forall q, path x q -> q = p.
Proof.
  assert (E : exists p, path x p).
  { destruct x as [b|f|r|n r|n b|n b]; [destruct (block_ex b)|destruct (file_ex f)|destruct (reg_ex r)|destruct (reg_ex r)|destruct (opt_ex b)|destruct (opt_ex b)];
      eexists; constructor; eassumption. }
  destruct E as [p P]. exists p. split; [exact P|]. intros q Q. destruct P; inversion Q; subst; try f_equal;
    eauto using block_det, opt_det, file_det, reg_det.
Qed.
Print Assumptions C234_path.

(** If no name has a dot, two objects have the same full name exactly if the names on the way to them are the same. *)
Lemma cut a : forall b s t, no_dot a -> no_dot b -> a ++ "." ++ s = b ++ "." ++ t -> a = b /\ s = t.
Proof.
  induction a as [|x a IH]; intros [|y b] s t HA HB E; cbn in *.
  - injection E as E. auto.
  - injection E as <- _. now destruct HB.
  - injection E as -> _. now destruct HA.
  - injection E as -> E. destruct HA as [_ HA], HB as [_ HB]. destruct (IH b s t HA HB E) as [-> ->]. auto.
Qed.
Lemma no_cut a b s : no_dot a -> a <> b ++ "." ++ s.
Proof.
  revert b. induction a as [|x a IH]; intros [|y b] HA E; cbn in *; try discriminate.
  - injection E as -> _. now destruct HA.
  - injection E as -> E. destruct HA as [_ HA]. now apply (IH b HA).
Qed.
Lemma concat_inj p : forall q, p <> [] -> q <> [] -> Forall no_dot p -> Forall no_dot q ->
  String.concat "." p = String.concat "." q -> p = q.
Proof.
  induction p as [|a p IH]; intros q Np Nq Hp Hq E; [congruence|]. destruct q as [|b q]; [congruence|].
  inversion Hp as [|? ? A1 A2]; subst. inversion Hq as [|? ? B1 B2]; subst.
  destruct p as [|a' p], q as [|b' q].
  - cbn in E. congruence.
  - exfalso. change (a = b ++ "." ++ String.concat "." (b' :: q)) in E. now apply no_cut in E.
  - exfalso. change (a ++ "." ++ String.concat "." (a' :: p) = b) in E. symmetry in E. now apply no_cut in E.
  - change (a ++ "." ++ String.concat "." (a' :: p) = b ++ "." ++ String.concat "." (b' :: q)) in E.
    apply cut in E; auto. destruct E as [-> E]. f_equal. apply IH; auto; discriminate.
Qed.
Lemma path_ne x p : path x p -> p <> [].
Proof.
  intros [b q H|f q H|r q H|n r q H|n b q H|n b q H]; try apply snoc_ne; [now apply block_ok in H|now apply file_ok in H|now apply reg_ok in H].
Qed.
Theorem C234_same x y p q : path x p -> path y q -> Forall no_dot p -> Forall no_dot q ->
  (full_name x = full_name y <-> p = q).
Proof.
  intros X Y P Q. rewrite (C234_full_name x p X), (C234_full_name y q Y). split; [|congruence].
  apply concat_inj; auto; eapply path_ne; eassumption.
Qed.
Print Assumptions C234_same.

Definition ex_top := Block "top" None.
Definition ex_sub := Block "sub" (Some ex_top).
Definition ex_file := RFile "in" (Some (RFile "out" None (Some ex_sub))) (Some ex_top).
Example C234_example :
  path (IField "f" (Reg "r" (Some ex_file) (Some ex_top))) ["top"; "sub"; "out"; "in"; "r"; "f"] /\
  full_name (IField "f" (Reg "r" (Some ex_file) (Some ex_top))) = "top.sub.out.in.r.f" /\
  full_name (IMap "m" (Some ex_sub)) = "top.sub.m" /\
  Forall no_dot ["top"; "sub"; "out"; "in"; "r"; "f"].
Proof.
  split; [|split; [reflexivity|split; [reflexivity|]]].
  - apply (p_field "f" _ ["top"; "sub"; "out"; "in"; "r"]), (rp_file "r" _ _ ["top"; "sub"; "out"; "in"]), (fp_file "in" _ _ ["top"; "sub"; "out"]),
      (fp_block "out" _ ["top"; "sub"]). constructor. apply (bp_in "sub" _ ["top"]). constructor.
  - repeat (apply Forall_cons; [cbn; repeat split; discriminate|]). apply Forall_nil.
Qed.
(** With a dot in a name two objects can have the same full name. *)
Theorem C234_dot_limit : exists x y p q, path x p /\ path y q /\ p <> q /\ full_name x = full_name y.
Proof.
  exists (IBlock ex_sub), (IBlock (Block "top.sub" None)), ["top"; "sub"], ["top.sub"].
  split; [constructor; apply (bp_in "sub" _ ["top"]); constructor|]. split; [repeat constructor|]. split; [discriminate|reflexivity].
Qed.
Print Assumptions C234_dot_limit.
