(** C185-C188: the context of sequence items and the macros that send them. *)
From Coq Require Import ZArith List Bool Arith String Lia.
From Verif Require Import Prelude CtxModel CtxSpec CtxProofs.
Import ListNotations.
Local Open Scope nat_scope.

(** ** C185: which sequencer an item goes to *)
Theorem C185_item : forall ls q x prio sqr r l,
  let s := fst (run ls) in
  q < size s -> o_seq (ob s q) = true -> x < size s ->
  chain s q l -> ~ In x (q :: l) ->
  first_of sqr (o_sqr (ob s x)) (o_sqr (ob s q)) r ->
  match r with
  | None => step s (LItem q x prio sqr) = (s, [OFatal])
  | Some t => snd (step s (LItem q x prio sqr)) = [OReq q x t (if (prio <? 0)%Z then o_prio (ob s q) else prio); OSend q x t] /\
              o_sqr (ob (fst (step s (LItem q x prio sqr))) x) = Some t
  end.
Proof.
  intros ls q x prio sqr r l s Hq Kq Hx C N F. apply first_orelse in F as ->.
  assert (X : exist s (LItem q x prio sqr) = true) by (cbn [exist]; unfold isq, known; apply Nat.ltb_lt in Hq, Hx; now rewrite Hq, Hx, Kq).
  unfold step. rewrite X. cbn [negb]. assert (H := item_spec s q x prio sqr [] (run_good ls) Hx Hq (ex_intro _ l (conj C N))).
  destruct (orelse sqr _); exact H.
Qed.
Print Assumptions C185_item.

(** uvm_do_on for an item ignores the sequencer given *)
Theorem C185_do : forall ls q x prio on ok r l,
  let s := fst (run ls) in
  q < size s -> o_seq (ob s q) = true -> x < size s ->
  chain s q l -> ~ In x (q :: l) ->
  first_of None (o_sqr (ob s x)) (o_sqr (ob s q)) r ->
  snd (step s (LDo q x on prio false ok)) =
  match r with
  | None => [OFatal]
  | Some t => [OReq q x t (if (prio <? 0)%Z then o_prio (ob s q) else prio); ORand x] ++ (if ok then [] else [OWarn]) ++ [OSend q x t]
  end.
Proof.
  intros ls q x prio on ok r l s Hq Kq Hx C N F. apply first_orelse in F as ->. assert (G : good s) by apply run_good.
  assert (X : exist s (LDo q x on prio false ok) = true) by (cbn [exist]; unfold isq, known; apply Nat.ltb_lt in Hq, Hx; now rewrite Hq, Hx, Kq).
  unfold step. rewrite X. cbn [negb]. unfold do_on. cbn zeta. set (n := new s (fresh false "SEQ_OR_ITEM" false)).
  assert (Gn : good n) by now apply good_new.
  assert (Cn : chain n q l) by (eapply chain_ext; [|exact C]; intros y _; now apply new_par).
  assert (B : snd (set_context n (size s) (Some q) on) = false).
  { eapply context_ends; [exact Gn|cbn; lia|cbn; lia|exact Cn|]. intros [H|H]; [lia|]. apply (chain_known _ _ _ G C) in H. lia. }
  destruct (set_context n (size s) (Some q) on) as (t, bad) eqn:E. cbn [snd] in B. subst bad.
  assert (Gt : good t) by (eapply context_good; [exact Gn| | |exact E]; [cbn; lia|intros p [= <-]; cbn; lia]).
  apply context_frame in E as (E1 & E2 & _ & E3 & _). cbn [orelse] in E3. cbn in E1.
  assert (K : forall y, y < size s -> core (ob t y) = core (ob s y)).
  { intros y Hy. rewrite E2 by lia. unfold n. cbn. now rewrite upd_neq by lia. }
  assert (Ct : chain t q l).
  { eapply chain_ext; [|exact C]. intros y Hy. assert (Ky : y < size s) by (destruct Hy as [->|Hy]; [exact Hq|eapply chain_known; eauto]). specialize (K y Ky). unfold core in K. congruence. }
  assert (Hx' : x < size t) by lia. assert (Hq' : q < size t) by lia.
  assert (H := item_spec t q x prio None (rand x ok) Gt Hx' Hq' (ex_intro _ l (conj Ct N))).
  assert (Q1 : o_sqr (ob t x) = o_sqr (ob s x)) by (specialize (K x Hx); unfold core in K; congruence).
  assert (Q2 : o_sqr (ob t q) = o_sqr (ob s q)) by (specialize (K q Hq); unfold core in K; congruence).
  assert (Q3 : o_prio (ob t q) = o_prio (ob s q)) by (specialize (K q Hq); unfold core in K; congruence).
  rewrite Q1, Q2 in H. destruct (orelse None _) as [u|]; [|rewrite H; reflexivity]. destruct H as (H & _). rewrite H, Q3. destruct ok; reflexivity.
Qed.
Print Assumptions C185_do.

(** an item keeps its sequencer *)
Theorem C185_sticky : forall ls ls' x t,
  o_sqr (ob (fst (run ls)) x) = Some t ->
  (forall l, In l ls' -> ~ names_sequencer l x) ->
  o_sqr (ob (fst (run (ls ++ ls'))) x) = Some t /\
  let later := snd (run_machine step (fst (run ls)) ls') in
  (forall q r p, In (OReq q x r p) later -> r = t) /\
  (forall q r, In (OSend q x r) later -> r = t) /\
  (forall r p, In (OStart x r p) later -> r = Some t).
Proof.
  intros ls ls' x t Q N. destruct (run_sqr ls' (fst (run ls)) x t (run_real _ _ _ Q) Q N) as (A & B).
  split; [unfold run; rewrite run_machine_app; exact A|].
  cbn zeta. rewrite Forall_forall in B. repeat split; intros; apply B in H; now apply H.
Qed.
Print Assumptions C185_sticky.

(** an item of sequence 0 (sequencer 7): sent by uvm_do_on to 7, whatever sequencer is given, and
    to 7 again by a sequence that runs on the sequencer 8; started with uvm_do_on, a sequence goes
    where it is told *)
Example C185_example :
  let r := run [LNew true "a" false; LNew true "b" false; LNew false "i" false; LNew true "c" false;
                LStart 0 (Some 7) None (-1); LStart 1 (Some 8) None (-1);
                LDo 0 2 (Some 9) (-1) false true; LItem 1 2 5 None; LItem 1 2 5 (Some 4); LDo 0 3 (Some 9) (-1) true false] in
  snd r = [OStart 0 (Some 7) 100; OStart 1 (Some 8) 100;
           OReq 0 2 7 100; ORand 2; OSend 0 2 7; OReq 1 2 7 5; OSend 1 2 7; OReq 1 2 4 5; OSend 1 2 4;
           ORand 3; OWarn; OStart 3 (Some 9) 100] /\
  chain (fst r) 1 [] /\ first_of None (Some 7) (Some 8) (Some 7).
Proof. cbn zeta. split; [reflexivity|]. split; [constructor; reflexivity|]. now apply first_b. Qed.
(** The object that the factory makes in uvm_do only decides how the one given is treated: a
    sequence is then sent as an item, and an item gives AttributeError. *)
Example C185_limit :
  snd (run [LNew true "a" false; LNew true "b" false; LNew false "i" false; LStart 0 (Some 7) None (-1);
            LDo 0 1 None (-1) false true; LDo 0 2 None (-1) true true]) =
  [OStart 0 (Some 7) 100; OReq 0 1 7 100; ORand 1; OSend 0 1 7; OAttr].
Proof. reflexivity. Qed.

(** ** C186: the depth *)
Theorem C186_context : forall ls x p sqr,
  let s := fst (run ls) in
  (forall y e, In (LDep y e) ls -> (-1 <= e)%Z) ->
  x < size s -> p < size s -> o_seq (ob s p) = true -> x <> p ->
  let t := fst (step s (LContext x (Some p) sqr)) in
  snd (step s (LContext x (Some p) sqr)) = [] ->
  exists d, snd (step t (LDepth p)) = [ODepth p d] /\ snd (step t (LDepth x)) = [ODepth x (d + 1)].
Proof.
  intros ls x p sqr s H Hx Hp Kp N. apply Nat.ltb_lt in Hx, Hp.
  assert (X : exist s (LContext x (Some p) sqr) = true) by (cbn [exist isp]; unfold isq, known; now rewrite Hx, Hp, Kp).
  unfold step at 1 2. rewrite X. cbn [negb].
  destruct (set_context s x (Some p) sqr) as (t, bad) eqn:E. cbn [fst snd]. destruct bad; [discriminate|]. intros _.
  destruct (context_depths s x p sqr t (run_nonneg ls H) N E) as (e & E1 & E2).
  apply context_frame in E as (Es & _). exists e. unfold step. cbn [exist]. unfold known. rewrite Es, Hx, Hp. cbn [negb]. rewrite E1, E2. auto.
Qed.
Print Assumptions C186_context.

Theorem C186_tree : forall ls x, tidy_run init ls -> x < size (fst (run ls)) ->
  exists l, chain (fst (run ls)) x l /\
  snd (step (fst (run ls)) (LDepth x)) = [ODepth x (1 + Z.of_nat (List.length l))].
Proof.
  intros ls x T Hx. destruct (tidy_tree ls init tree_init T) as (Tr & _). fold (run ls) in Tr. set (s := fst (run ls)) in *.
  destruct (t_chain _ Tr x) as (l & C). exists l. split; [exact C|]. unfold step. cbn [exist]. unfold known. apply Nat.ltb_lt in Hx. rewrite Hx. cbn [negb]. apply Nat.ltb_lt in Hx.
  assert (L := chain_length _ _ _ (t_good _ Tr) Hx C). destruct (depth_ends (S (size s)) s x l C) as (t & d & D); [lia|]. unfold get_depth. rewrite D. cbn [snd].
  destruct (depth_right (fun _ => False) _ _ _ _ _ _ C (fun e => e) (fun _ _ e => e) (fun y m Cy _ => t_right _ Tr y m Cy) D) as (-> & _). do 2 f_equal. lia.
Qed.
Print Assumptions C186_tree.

Theorem C186_no_error : forall ls, tidy_run init ls -> ~ In ORec (snd (run ls)).
Proof. intros ls T. apply (tidy_tree ls init tree_init T). Qed.
Print Assumptions C186_no_error.

Definition nested : list label :=
  [LNew true "a" false; LNew true "b" false; LNew false "i" false; LStart 0 (Some 7) None (-1); LStart 1 None (Some 0) (-1); LItem 1 2 (-1) None].
Example C186_example :
  tidy_run init nested /\ chain (fst (run nested)) 2 [1; 0] /\ snd (step (fst (run nested)) (LDepth 2)) = [ODepth 2 3].
Proof.
  split; [|split; [|vm_compute; reflexivity]].
  - apply tidy_runb_ok; [apply good_init|vm_compute; reflexivity].
  - apply (chain_up _ _ 1); [vm_compute; reflexivity|]. apply (chain_up _ _ 0); [vm_compute; reflexivity|]. apply chain_top. vm_compute. reflexivity.
Qed.
(** A depth that is known is not computed again when the parent moves: the item stays at 3 when
    its sequence gets another parent two levels deeper. *)
Example C186_limit :
  let s := fst (run (nested ++ [LNew true "c" false; LNew true "d" false; LStart 3 (Some 7) None (-1); LStart 4 None (Some 3) (-1); LStart 1 None (Some 4) (-1)])) in
  snd (step s (LDepth 1)) = [ODepth 1 3] /\ snd (step s (LDepth 2)) = [ODepth 2 3] /\ chain s 2 [1; 4; 3].
Proof.
  cbn zeta. split; [vm_compute; reflexivity|]. split; [vm_compute; reflexivity|].
  apply (chain_up _ _ 1); [vm_compute; reflexivity|]. apply (chain_up _ _ 4); [vm_compute; reflexivity|]. apply (chain_up _ _ 3); [vm_compute; reflexivity|]. apply chain_top. vm_compute. reflexivity.
Qed.

(** ** C187: names along the parents *)
Theorem C187_names : forall qname s x l, chain s x l -> forall fuel, List.length l < fuel ->
  full_name qname fuel s x = Some (String.concat "." (map qname (to_list (o_sqr (ob s (last l x)))) ++ map (fun y => shown (o_name (ob s y))) (rev (x :: l)))) /\
  get_path fuel s x = Some (String.concat "." (map (fun y => o_name (ob s y)) (rev (x :: l)))) /\
  root_seq fuel s x None = Some (hd_error (rev l)).
Proof.
  intros qname s x l C fuel H. split; [now apply full_name_ends|]. split.
  - unfold get_path. rewrite (path_ends _ _ _ C _ _ H). cbn [rev]. now rewrite map_app.
  - rewrite (root_ends _ _ _ C _ _ H). now destruct l.
Qed.
Print Assumptions C187_names.

Theorem C187_endless : forall qname s x, (forall l, ~ chain s x l) -> forall fuel,
  full_name qname fuel s x = None /\ get_path fuel s x = None /\ root_seq fuel s x None = None.
Proof.
  intros qname s x N fuel. split; [|split].
  - destruct (full_name qname fuel s x) as [n|] eqn:E; [|reflexivity]. apply full_name_only in E as (l & C). now destruct (N l).
  - unfold get_path. destruct (seq_path fuel s x _) as [n|] eqn:E; [|reflexivity]. apply path_only in E as (l & C). now destruct (N l).
  - destruct (root_seq fuel s x None) as [n|] eqn:E; [|reflexivity]. apply root_only in E as (l & C). now destruct (N l).
Qed.
Print Assumptions C187_endless.

(** every walk up ends after at most as many steps as there are objects *)
Theorem C187_bound : forall ls x l, x < size (fst (run ls)) -> chain (fst (run ls)) x l -> List.length l < size (fst (run ls)).
Proof. intros ls x l. apply chain_length, run_good. Qed.
Print Assumptions C187_bound.

Theorem C187_tree : forall ls x, tidy_run init ls -> exists l, chain (fst (run ls)) x l.
Proof. intros ls x T. destruct (tidy_tree ls init tree_init T) as (Tr & _). apply (t_chain _ Tr). Qed.
Print Assumptions C187_tree.

Example C187_example : let s := fst (run nested) in
  full_name (fun _ => "top.sqr"%string) 9 s 2 = Some "top.sqr.a.b.i"%string /\ get_path 9 s 2 = Some "a.b.i"%string /\
  root_seq 9 s 2 None = Some (Some 0) /\ root_seq 9 s 0 None = Some None.
Proof. vm_compute. repeat split. Qed.
(** Two sequences started with each other as parent: no error is given, and the names never end. *)
Example C187_limit :
  let r := run [LNew true "a" false; LNew true "b" false; LStart 0 (Some 7) None (-1); LStart 1 None (Some 0) (-1); LStart 0 None (Some 1) (-1)] in
  snd r = [OStart 0 (Some 7) 100; OStart 1 (Some 7) 100; OStart 0 (Some 7) 100] /\
  forall l, ~ chain (fst r) 0 l.
Proof.
  cbn zeta. split; [vm_compute; reflexivity|]. intros l C. set (s := fst _) in *. assert (P0 : o_par (ob s 0) = Some 1) by (vm_compute; reflexivity). assert (P1 : o_par (ob s 1) = Some 0) by (vm_compute; reflexivity). clearbody s.
  assert (C2 := C). inversion C2 as [? E|? p m E D]; subst; [congruence|]. rewrite P0 in E. injection E as <-.
  inversion D as [? E|? p m' E D']; subst; [congruence|]. rewrite P1 in E. injection E as <-. apply chain_nodup in C. inversion C as [|? ? C1 _]; subst. apply C1. right. now left.
Qed.

(** ** C188: priorities *)
Theorem C188_start : forall ls x sqr par prio,
  let s := fst (run ls) in
  x < size s -> o_seq (ob s x) = true -> (forall p, par = Some p -> p < size s /\ o_seq (ob s p) = true) ->
  ~ In ORec (snd (step s (LStart x sqr par prio))) ->
  exists t,
    (snd (step s (LStart x sqr par prio)) =
     if (prio <? -1)%Z then [OFatal]
     else [OStart x t (if (prio =? -1)%Z then match par with Some p => o_prio (ob s p) | None => 100 end else prio)]) /\
    t = o_sqr (ob (fst (step s (LStart x sqr par prio))) x) /\
    (forall r, sqr = Some r -> t = Some r) /\
    (forall p, sqr = None -> par = Some p -> p <> x -> t = o_sqr (ob s p)) /\
    (forall p, sqr = None -> par = None -> o_par (ob s x) = Some p -> t = o_sqr (ob s p)) /\
    (sqr = None -> par = None -> o_par (ob s x) = None -> t = None).
Proof.
  intros ls x sqr par prio s Hx Kx Hp. 
  assert (X : exist s (LStart x sqr par prio) = true).
  { cbn [exist]. unfold isp, isq, known. apply Nat.ltb_lt in Hx. rewrite Hx, Kx. destruct par as [p|]; [|reflexivity]. destruct (Hp p eq_refl) as (Hp1 & Hp2). apply Nat.ltb_lt in Hp1. now rewrite Hp1, Hp2. }
  unfold step. rewrite X. cbn [negb]. unfold start. destruct (set_context s x par sqr) as (t, bad) eqn:E. destruct bad; [intros H; destruct H; now left|]. intros _.
  assert (Pr := fun y => context_prio _ _ _ _ _ _ y E). apply context_frame in E as (_ & _ & _ & _ & E5). exists (o_sqr (ob t x)).
  assert (T : (forall r, sqr = Some r -> o_sqr (ob t x) = Some r) /\ (forall p, sqr = None -> par = Some p -> p <> x -> o_sqr (ob t x) = o_sqr (ob s p)) /\
    (forall p, sqr = None -> par = None -> o_par (ob s x) = Some p -> o_sqr (ob t x) = o_sqr (ob s p)) /\ (sqr = None -> par = None -> o_par (ob s x) = None -> o_sqr (ob t x) = None)).
  { rewrite E5. unfold ctx_sqr. repeat split.
    - now intros r ->.
    - now intros p -> -> _.
    - now intros p -> -> ->.
    - now intros -> -> ->. }
  destruct (prio <? -1)%Z eqn:L; [split; [reflexivity|split; [reflexivity|exact T]]|]. cbn zeta. cbn [fst snd].
  assert (Q : (if (prio <? 0)%Z then match par with None => 100%Z | Some p => o_prio (ob t p) end else prio) = (if (prio =? -1)%Z then match par with Some p => o_prio (ob s p) | None => 100%Z end else prio)).
  { apply Z.ltb_ge in L. destruct (Z.eqb_spec prio (-1)) as [->|Ne]; [destruct par; [apply Pr|reflexivity]|]. destruct (Z.ltb_spec prio 0) as [H|H]; [lia|reflexivity]. }
  rewrite Q. split; [|split; [|exact T]]; cbn; rewrite upd_eq; reflexivity.
Qed.
Print Assumptions C188_start.

(** a sequence that no parent is given to keeps the one it had *)
Theorem C188_parent : forall ls x sqr par prio p,
  let s := fst (run ls) in
  x < size s -> o_seq (ob s x) = true -> (forall p, par = Some p -> p < size s /\ o_seq (ob s p) = true) ->
  o_par (ob (fst (step s (LStart x sqr par prio))) x) = Some p <-> par = Some p \/ par = None /\ o_par (ob s x) = Some p.
Proof.
  intros ls x sqr par prio p s Hx Kx Hp.
  assert (X : exist s (LStart x sqr par prio) = true).
  { cbn [exist]. unfold isp, isq, known. apply Nat.ltb_lt in Hx. rewrite Hx, Kx. destruct par as [p0|]; [|reflexivity]. destruct (Hp p0 eq_refl) as (Hp1 & Hp2). apply Nat.ltb_lt in Hp1. now rewrite Hp1, Hp2. }
  unfold step. rewrite X. cbn [negb]. rewrite start_par. destruct par as [p0|]; cbn [orelse].
  - split; [now left|]. intros [H|(H & _)]; [exact H|discriminate].
  - split; [now right|]. intros [H|(_ & H)]; [discriminate|exact H].
Qed.
Print Assumptions C188_parent.

Theorem C188_plain : forall ls, plain_run init [] ls ->
  (forall x t p, In (OStart x t p) (snd (run ls)) -> p = 100%Z) /\
  (forall q x t p, In (OReq q x t p) (snd (run ls)) -> p = 100%Z).
Proof.
  intros ls R. assert (I : plain_inv init []) by (split; [constructor|easy]). destruct (plain_all ls init [] I R) as (A & _). cbn [app] in A. fold (run ls) in A. rewrite Forall_forall in A.
  split; intros; apply A in H; exact H.
Qed.
Print Assumptions C188_plain.

Example C188_example : plain_run init [] (nested ++ [LDo 1 2 None (-1) false true; LSendMac 0 1 (-1)]) /\
  snd (run (nested ++ [LDo 1 2 None (-1) false true; LSendMac 0 1 (-1)])) =
  [OStart 0 (Some 7) 100; OStart 1 (Some 7) 100; OReq 1 2 7 100; OSend 1 2 7; OReq 1 2 7 100; ORand 2; OSend 1 2 7; OStart 1 (Some 7) 100].
Proof. split; [|vm_compute; reflexivity]. vm_compute. repeat split; eauto 10. Qed.
(** The priority of a parent that was never started is -1, and execute_item asks with it. *)
Example C188_limit :
  snd (run [LNew true "a" false; LNew true "b" false; LNew false "i" false; LStart 1 (Some 7) (Some 0) (-1); LExec 7 2]) =
  [OStart 1 (Some 7) (-1); OReq 3 2 7 (-1); OSend 3 2 7].
Proof. vm_compute. reflexivity. Qed.
