(** C180-C184: the hierarchy of address maps. *)
From Coq Require Import List Bool Arith Lia.
From Verif Require Import Prelude MtrModel MtrSpec MtrProofs.
Import ListNotations.

(** A system with two blocks: 0 above 1. Map 0 in block 0, maps 1 and 2 in block 1. Register 0
    is in maps 1 and 2, register 1 in map 2 only, all of block 1. *)
Definition ex_build : list label :=
  [LBlock None; LBlock (Some 0); LMap 0; LMap 1; LMap 1; LReg 1; LReg 1;
   LAdd 1 0 1 false false; LAdd 2 0 2 false false; LAdd 2 1 3 true false; LSub 0 1].
Definition ex_run : list label := ex_build ++ [LLock 0].

(** ** C180: the tree of maps *)
(** get_parent_map is the map of the successful add_submap; there is at most one. *)
Theorem C180_parent ls c p :
  (p_par (mp (fst (run ls)) c) = Some p <-> In (OJoined p c) (snd (run ls))) /\
  (forall q, In (OJoined p c) (snd (run ls)) -> In (OJoined q c) (snd (run ls)) -> p = q).
Proof.
  destruct (run_inv ls) as ((V & _) & _). split; [apply (v_par _ _ V)|]. intros q. apply (joined_one _ _ V).
Qed.
Print Assumptions C180_parent.

(** add_submap succeeds exactly for a map that has no parent map and whose block is properly
    below the block of this map. Otherwise nothing changes: uvm_error if there is a parent
    map, AttributeError if not. *)
Theorem C180_accept ls m c :
  let s := fst (run ls) in let tr := snd (run ls) in
  m < nm s -> c < nm s ->
  ((exists p, In (OJoined p c) tr) -> step s (LSub m c) = (s, [OErr])) /\
  ((forall p, ~ In (OJoined p c) tr) -> ~ block_below s (p_blk (mp s m)) (p_blk (mp s c)) -> step s (LSub m c) = (s, [OAttr])) /\
  ((forall p, ~ In (OJoined p c) tr) -> block_below s (p_blk (mp s m)) (p_blk (mp s c)) -> snd (step s (LSub m c)) = [OJoined m c]).
Proof.
  intros s tr Hm Hc. destruct (run_inv ls) as ((V & _) & _). fold s tr in V.
  assert (E : step s (LSub m c) = add_submap s m c).
  { unfold step. cbn [exist]. apply Nat.ltb_lt in Hm, Hc. now rewrite Hm, Hc. }
  rewrite E. destruct (add_submap_eq s tr m c V Hm Hc) as [(p & P & ->)|[(P & B & ->)|(P & B & ->)]].
  - apply (v_par _ _ V) in P. split; [auto|]. split; intros N; exfalso; eapply N; eauto.
  - assert (N : ~ exists p, In (OJoined p c) tr) by (intros (p & J); apply (v_par _ _ V) in J; congruence). split; [tauto|]. split; [auto|]. intros _ B'. contradiction.
  - assert (N : ~ exists p, In (OJoined p c) tr) by (intros (p & J); apply (v_par _ _ V) in J; congruence). split; [tauto|]. split; [contradiction|auto].
Qed.
Print Assumptions C180_accept.

(** The maps form a forest: no map is below itself, every map is under exactly one map that
    has no parent map, and no walk up or down runs for ever. *)
Theorem C180_ends ls m :
  let s := fst (run ls) in let tr := snd (run ls) in
  ~ In OLoop tr /\
  (m < nm s ->
   ~ strictly tr m m /\
   (exists l, above (S (nb s)) s m = Some l) /\ (exists l, collect (fun k => [k]) (S (nb s)) s m = Some l) /\
   (exists top, under tr top m /\ (forall p, ~ In (OJoined p top) tr) /\
      (forall top', under tr top' m -> (forall p, ~ In (OJoined p top') tr) -> top' = top))).
Proof.
  intros s tr. destruct (run_inv ls) as ((V & _) & L). fold s tr in V, L. split; [exact L|]. intros Hm.
  split; [intros H; apply (strictly_blk _ _ V) in H; lia|].
  destruct (ups_spec _ _ V m Hm) as (E & _ & U & R). split; [eauto|].
  split; [destruct (collect_tree s tr V (fun k => [k]) m Hm) as (E2 & _); eauto|].
  exists (root s m). split; [exact U|]. split; [intros p H; apply (v_par _ _ V) in H; congruence|].
  intros t Ut Nt. symmetry. exact (root_unique _ _ _ _ V Hm Nt Ut).
Qed.
Print Assumptions C180_ends.

(** get_submaps gives every map strictly below once, whatever the depth; get_registers gives a
    register as often as there are maps at or below that it was added to. *)
Theorem C180_lists ls m :
  let s := fst (run ls) in let tr := snd (run ls) in
  m < nm s ->
  NoDup (get_submaps s m) /\ (forall x, In x (get_submaps s m) <-> strictly tr m x) /\
  (forall r, exists l, NoDup l /\ (forall x, In x l <-> In (OAdded x r) tr /\ under tr m x) /\
     count_occ Nat.eq_dec (get_registers s m) r = length l).
Proof.
  intros s tr Hm. destruct (run_inv ls) as ((V & _) & _). fold s tr in V.
  destruct (submaps_spec _ _ V m Hm) as (l & _ & -> & N & I). split; [exact N|]. split; [exact I|]. intros r. now apply registers_spec.
Qed.
Print Assumptions C180_lists.
Example C180_example :
  let s := fst (run ex_run) in
  p_par (mp s 1) = Some 0 /\ p_par (mp s 2) = None /\ get_submaps s 0 = [1] /\ get_registers s 0 = [0] /\
  snd (step s (LSub 2 1)) = [OErr] /\ snd (step s (LSub 2 0)) = [OAttr] /\ snd (step s (LSub 1 2)) = [OAttr] /\
  snd (step s (LSub 0 2)) = [OJoined 0 2] /\ get_submaps (fst (step s (LSub 0 2))) 0 = [1; 2] /\
  get_registers (fst (step s (LSub 0 2))) 0 = [0; 0; 1].
Proof. repeat split; vm_compute; reflexivity. Qed.

(** ** C181: the map used *)
Theorem C181_in_map ls r m :
  let s := fst (run ls) in let tr := snd (run ls) in
  is_in_map s r m = true <-> exists l, In (OAdded l r) tr /\ under tr m l.
Proof. intros s tr. apply is_in_map_spec. apply run_inv. Qed.
Print Assumptions C181_in_map.

(** get_local_map: the map given if the register was added to it, otherwise the first of the
    maps it was added to that is below the map given. get_default_map: the only map, or the
    one found the same way from the default map of the block, or the first. *)
Theorem C181_local ls r m :
  let s := fst (run ls) in let tr := snd (run ls) in
  chosen tr r m (get_local_map s r (Some m)) /\ chosen_default s tr r (get_local_map s r None).
Proof.
  intros s tr. destruct (run_inv ls) as ((V & _) & _). fold s tr in V. split; [now apply local_chosen|now apply default_chosen].
Qed.
Print Assumptions C181_local.

(** A register that is in a map stays in it. *)
Theorem C181_keeps ls ls2 r m :
  is_in_map (fst (run ls)) r m = true -> is_in_map (fst (run (ls ++ ls2))) r m = true.
Proof.
  rewrite !C181_in_map. intros (l & A & U). exists l. split; [now apply trace_mono|now apply under_mono].
Qed.
Print Assumptions C181_keeps.
Example C181_example :
  let s := fst (run ex_run) in
  is_in_map s 0 0 = true /\ is_in_map s 1 0 = false /\ get_local_map s 0 (Some 0) = Some 1 /\ get_local_map s 0 (Some 2) = Some 2 /\
  get_local_map s 1 (Some 0) = None /\ get_local_map s 0 None = Some 1 /\
  get_local_map (fst (step s (LDefault 1 2))) 0 None = Some 2 /\ get_local_map (fst (step s (LDefault 1 0))) 0 None = Some 1.
Proof. repeat split; vm_compute; reflexivity. Qed.

(** ** C182: what an access gives *)
(** A map that neither contains the register nor has a map below that does: UVM_NOT_OK. No map
    given and the register in no map at all: AttributeError. *)
Theorem C182_refused ls r m :
  let s := fst (run ls) in let tr := snd (run ls) in
  ((~ exists l, In (OAdded l r) tr /\ under tr m l) -> try_access s r (Some m) = NotOk /\ get_rights s r (Some m) = Some 0) /\
  ((forall l, ~ In (OAdded l r) tr) -> try_access s r None = AttrE).
Proof.
  intros s tr. destruct (run_inv ls) as ((V & _) & _). fold s tr in V. split.
  - rewrite (local_some _ _ V). unfold try_access, get_rights. cbn [get_local_map]. destruct (local_map s r m) as [l|]; [|auto].
    intros H. exfalso. apply H. discriminate.
  - intros H. unfold try_access. cbn [get_local_map].
    assert (E : default_map s r = None) by (apply (default_none _ _ V), no_in_nil; intros x; rewrite in_maps_of; apply H). now rewrite E.
Qed.
Print Assumptions C182_refused.

(** Otherwise the access goes through the map found, with what was given to its add_reg: as
    long as no initialising call has come after that add_reg, uvm_fatal; afterwards UVM_NOT_OK
    for an unmapped register without a front door of its own, and else it goes through. *)
Theorem C182_outcome a b l r rights u f m :
  let ls := a ++ LAdd l r rights u f :: b in
  let s := fst (run ls) in
  snd (step (fst (run a)) (LAdd l r rights u f)) = [OAdded l r] ->
  get_local_map s r m = Some l ->
  let done := exists b1 x b2, b = b1 ++ x :: b2 /\
    initialises (fst (run (a ++ LAdd l r rights u f :: b1))) (snd (run (a ++ LAdd l r rights u f :: b1))) x l in
  (~ done -> try_access s r m = Fatal /\ get_rights s r m = None) /\
  (done -> get_rights s r m = Some rights /\ (u = true /\ f = false -> try_access s r m = NotOk) /\
           (u = false \/ f = true -> try_access s r m = Via l)).
Proof.
  intros ls s A G done. destruct (info_run a l r rights u f b (conj eq_refl A)) as (i & E & H).
  fold ls in E. fold s in E. fold done in H. unfold try_access, get_rights. rewrite G, E. cbn [i_init i_front i_unmapped i_rights].
  split; intros D.
  - destruct i; [exfalso; tauto|]. auto.
  - apply H in D. subst i. cbn. split; [reflexivity|]. split; [intros (-> & ->); reflexivity|]. intros [-> | ->]; [now destruct f|reflexivity].
Qed.
Print Assumptions C182_outcome.

(** Every map found is one of the maps the register was added to, so one of these holds. *)
Theorem C182_cases ls r m l :
  get_local_map (fst (run ls)) r m = Some l ->
  exists a rights u f b, ls = a ++ LAdd l r rights u f :: b /\ snd (step (fst (run a)) (LAdd l r rights u f)) = [OAdded l r].
Proof.
  intros G. assert (A : In (OAdded l r) (snd (run ls))).
  { destruct (run_inv ls) as ((V & _) & _). destruct m as [m|]; cbn [get_local_map] in G; [eapply local_in; eauto|eapply default_in; eauto]. }
  clear G. induction ls as [|x ls IH] using rev_ind; [destruct A|]. rewrite run_snoc in A. cbn [snd] in A. apply in_app_or in A as [A|A].
  - destruct (IH A) as (a & rights & u & f & b & -> & E). exists a, rights, u, f, (b ++ [x]). rewrite <- app_assoc. auto.
  - assert (X : exists rights u f, x = LAdd l r rights u f /\ snd (step (fst (run ls)) x) = [OAdded l r]).
    { clear IH. revert A. unfold step. destruct (exist _ x); [|easy]. cbn [negb].
      destruct x as [p|c|c|m' r' rights u f|m' c|m' q d|m' on|m' on|c m'|c]; try easy.
      - unfold add_block. cbn zeta. destruct p; [destruct (b_lock _)|]; cbn; intros A; try easy; destruct A as [A|[]]; discriminate.
      - unfold create_map. cbn zeta. destruct (b_lock _); cbn; intros A; try easy; destruct A as [A|[]]; discriminate.
      - unfold add_reg. cbn zeta. destruct (memb _ _); [intros [A|[]]; discriminate|]. destruct (negb _); cbn [snd]; [intros [A|[]]; discriminate|].
        intros [[= -> ->]|[]]. eauto.
      - unfold add_submap. destruct (p_par _); [intros [A|[]]; discriminate|]. destruct (reaches _ _ _ _) as [[|]|]; cbn [snd]; intros [A|[]]; discriminate.
      - unfold set_sequencer. destruct q; cbn; intros A; try easy; destruct A as [A|[]]; discriminate.
      - unfold lock_model. destruct (b_lock _); [easy|]. destruct (lock_down _ _ _); cbn [snd]; intros A; try easy. destruct A as [A|[]]; discriminate. }
    destruct X as (rights & u & f & -> & E). exists ls, rights, u, f, []. auto.
Qed.
Print Assumptions C182_cases.
Example C182_example :
  let s := fst (run ex_run) in
  try_access s 0 (Some 0) = Via 1 /\ try_access s 0 None = Via 1 /\ get_rights s 0 (Some 0) = Some 1 /\
  try_access s 1 (Some 0) = NotOk /\ try_access s 1 (Some 2) = Fatal /\
  try_access (fst (step s (LSub 0 2))) 1 (Some 2) = NotOk /\ get_rights (fst (step s (LSub 0 2))) 0 (Some 2) = Some 2 /\
  try_access (fst (run (ex_run ++ [LReg 1]))) 2 None = AttrE.
Proof. repeat split; vm_compute; reflexivity. Qed.

(** ** C183: initialisation *)
(** lock_model of a top block that is not yet locked makes all registers usable that are in
    maps at or below the maps of this block, for good. *)
Theorem C183_lock a b ls2 m l r :
  let s := fst (run a) in let tr := snd (run a) in
  let t := fst (run (a ++ LLock b :: ls2)) in
  b < nb s -> b_lock (bl s b) = false -> b_par (bl s b) = None ->
  m < nm s -> p_blk (mp s m) = b -> under tr m l -> In (OAdded l r) tr ->
  forall x, get_local_map t r x = Some l -> try_access t r x <> Fatal /\ get_rights t r x <> None.
Proof.
  intros s tr t Hb Hl Hp Hm Bm U A x G.
  assert (C : exists a1 rights u f a2, a = a1 ++ LAdd l r rights u f :: a2 /\ snd (step (fst (run a1)) (LAdd l r rights u f)) = [OAdded l r]).
  { apply (C182_cases a r (Some l)). cbn [get_local_map]. destruct (run_inv a) as ((V & _) & _).
    unfold local_map. rewrite (v_rmaps _ _ V). apply in_maps_of, memb_in in A. fold tr. now rewrite A. }
  destruct C as (a1 & rights & u & f & a2 & -> & E).
  assert (Eq : (a1 ++ LAdd l r rights u f :: a2) ++ LLock b :: ls2 = a1 ++ LAdd l r rights u f :: (a2 ++ LLock b :: ls2)) by (rewrite <- app_assoc; reflexivity).
  subst t. rewrite Eq in *. destruct (C182_outcome a1 (a2 ++ LLock b :: ls2) l r rights u f x E G) as (_ & D).
  destruct D as (D1 & D2 & D3).
  { exists a2, (LLock b), ls2. split; [reflexivity|]. cbn [initialises]. repeat split; auto. exists m. auto. }
  rewrite D1. split; [|discriminate].
  destruct u; [destruct f|]; [rewrite D3 by auto|rewrite D2 by auto|rewrite D3 by auto]; discriminate.
Qed.
Print Assumptions C183_lock.

(** A register added afterwards is not usable through that map until lock_model or add_submap
    initialises it. *)
Theorem C183_late a b l r rights u f x :
  let ls := a ++ LAdd l r rights u f :: b in
  snd (step (fst (run a)) (LAdd l r rights u f)) = [OAdded l r] ->
  (forall y, In y b -> (forall c, y <> LLock c) /\ (forall m c, y <> LSub m c)) ->
  get_local_map (fst (run ls)) r x = Some l -> try_access (fst (run ls)) r x = Fatal.
Proof.
  intros ls A N G. apply (C182_outcome a b l r rights u f x A G). intros (b1 & y & b2 & -> & I).
  destruct (N y) as (N1 & N2); [apply in_elt|]. destruct y; try contradiction; [eapply N2; reflexivity|eapply N1; reflexivity].
Qed.
Print Assumptions C183_late.

(** Maps whose top map belongs to a block with a parent are never initialised by lock_model:
    if no submap is added below a map of a locked block, every access is fatal. *)
Theorem C183_subblock ls top l r x :
  let s := fst (run ls) in let tr := snd (run ls) in
  (forall a m c b, ls = a ++ LSub m c :: b -> b_lock (bl (fst (run a)) (p_blk (mp (fst (run a)) m))) = false) ->
  under tr top l -> (forall p, ~ In (OJoined p top) tr) -> b_par (bl s (p_blk (mp s top))) <> None ->
  get_local_map s r x = Some l -> try_access s r x = Fatal.
Proof.
  intros s tr NL U Nt Pt G. destruct (C182_cases ls r x l G) as (a & rights & u & f & b & E & A).
  assert (V := proj1 (run_inv ls)). fold s tr in V.
  subst s tr. subst ls. apply (C182_outcome a b l r rights u f x A G). intros (b1 & y & b2 & Eb & I).
  set (pre := a ++ LAdd l r rights u f :: b1) in *.
  assert (El : a ++ LAdd l r rights u f :: b = pre ++ y :: b2) by (unfold pre; rewrite Eb, <- app_assoc; reflexivity).
  rewrite El in *. destruct y as [| | | |m c| | | | |bb]; try contradiction.
  - destruct I as (_ & I & _). rewrite (NL pre m c b2 eq_refl) in I. discriminate.
  - cbn [initialises] in I. destruct I as (Hb & _ & Hp & m & Hm & Bm & Um).
    destruct (keep_run pre (LLock bb :: b2)) as (K1 & K2). destruct V as (V & _).
    assert (Um' := under_mono pre (LLock bb :: b2) m l Um).
    assert (Bm' : p_blk (mp (fst (run (pre ++ LLock bb :: b2))) m) = bb) by (rewrite K2 by exact Hm; exact Bm).
    assert (Nm : forall p, ~ In (OJoined p m) (snd (run (pre ++ LLock bb :: b2)))).
    { intros p J. apply (v_joined _ _ V) in J as (_ & _ & J). rewrite Bm' in J.
      inversion J as [? E2|? ? E2 ?]; subst; rewrite K1 in E2 by exact Hb; congruence. }
    assert (Hl : l < nm (fst (run (pre ++ LLock bb :: b2)))).
    { eapply under_exists; [exact V| |exact Um']. assert (X := nm_mono pre (LLock bb :: b2)). lia. }
    assert (Et := root_unique _ _ _ _ V Hl Nt U). assert (Em := root_unique _ _ _ _ V Hl Nm Um'). rewrite Et in Em. rewrite Em in Pt.
    rewrite Bm' in Pt. apply Pt. rewrite K1 by exact Hb. exact Hp.
Qed.
Print Assumptions C183_subblock.
(** Registers added after the lock (add_reg does not look at it), and a map of the sub-block
    that is in no other map. *)
Example C183_example :
  let s := fst (run ex_run) in
  try_access s 1 (Some 2) = Fatal /\
  try_access (fst (run (ex_run ++ [LReg 1; LAdd 1 2 0 false false]))) 2 None = Fatal /\
  try_access (fst (run (ex_run ++ [LReg 1; LAdd 1 2 0 false false; LLock 0]))) 2 None = Fatal /\
  try_access (fst (run (ex_run ++ [LReg 1; LAdd 1 2 0 false false; LSub 0 2]))) 2 None = Via 1 /\
  try_access (fst (run ex_build)) 0 None = Fatal.
Proof. repeat split; vm_compute; reflexivity. Qed.

(** ** C184: settings of a map *)
Lemma seqr_kept a b m q ad au : m < nm (fst (run a)) -> Forall (fun x => ~ sets_seqr x m) b ->
  fst (fields (mp (fst (run a)) m)) = (q, ad, au) -> exists au', fst (fields (mp (fst (run (a ++ b))) m)) = (q, ad, au').
Proof.
  intros Hm F E. induction b as [|y b IH] using rev_ind; [rewrite app_nil_r; eauto|]. apply Forall_app in F as (F1 & F2). inversion F2 as [|? ? Fy]; subst.
  destruct (IH F1) as (au' & E'). rewrite app_assoc, run_snoc. cbn [fst].
  destruct (fields_step _ _ y m (proj1 (run_inv (a ++ b)))) as (G & _); [assert (X := nm_mono a b); lia|]. rewrite G, E'.
  destruct y as [| | | | |m' q' a'|m' on| | |]; cbn [set_of]; eauto.
  - destruct q'; [|eauto]. cbn [sets_seqr] in Fy. destruct (Nat.eqb_spec m' m); [contradiction|eauto].
  - destruct (Nat.eqb m' m); eauto.
Qed.
Lemma auto_kept a b m on : m < nm (fst (run a)) -> Forall (fun x => ~ sets_auto x m) b ->
  p_auto (mp (fst (run a)) m) = on -> p_auto (mp (fst (run (a ++ b))) m) = on.
Proof.
  intros Hm F E. induction b as [|y b IH] using rev_ind; [rewrite app_nil_r; exact E|]. apply Forall_app in F as (F1 & F2). inversion F2 as [|? ? Fy]; subst.
  specialize (IH F1). rewrite app_assoc, run_snoc. cbn [fst].
  destruct (fields_step _ _ y m (proj1 (run_inv (a ++ b)))) as (G & _); [assert (X := nm_mono a b); lia|]. unfold fields in G. cbn [fst] in G.
  destruct y as [| | | | |m' q' a'|m' on'| | |]; cbn [set_of] in G; try congruence.
  - destruct q'; [|congruence]. destruct (Nat.eqb_spec m' m); congruence.
  - cbn [sets_auto] in Fy. destruct (Nat.eqb_spec m' m); [contradiction|congruence].
Qed.
Lemma top_run ls m l : m < nm (fst (run ls)) -> (forall p, ~ In (OJoined p m) (snd (run ls))) -> under (snd (run ls)) m l -> root (fst (run ls)) l = m.
Proof.
  intros Hm N U. destruct (run_inv ls) as ((V & _) & _). apply (root_unique _ _ _ _ V); [eapply under_exists; eauto|exact N|exact U].
Qed.
(** An access through map [l] uses the sequencer and the adapter of the last set_sequencer on
    the top map [m], whenever that was relative to add_submap. *)
Theorem C184_sequencer a q ad b m l :
  let ls := a ++ LSeqr m (Some q) ad :: b in
  m < nm (fst (run a)) -> Forall (fun x => ~ sets_seqr x m) b ->
  (forall p, ~ In (OJoined p m) (snd (run ls))) -> under (snd (run ls)) m l ->
  used_seqr (fst (run ls)) l = Some q /\ used_adapter (fst (run ls)) l = ad.
Proof.
  intros ls Hm F N U.
  assert (Hm' : m < nm (fst (run ls))) by (assert (X := nm_mono a (LSeqr m (Some q) ad :: b)); unfold ls; lia).
  unfold used_seqr, used_adapter. rewrite (top_run ls m l Hm' N U). unfold ls.
  change (a ++ LSeqr m (Some q) ad :: b) with (a ++ [LSeqr m (Some q) ad] ++ b). rewrite app_assoc.
  destruct (fields_step _ _ (LSeqr m (Some q) ad) m (proj1 (run_inv a)) Hm) as (G & _). cbn [set_of] in G. unfold fields at 2 in G. cbn [fst] in G. rewrite Nat.eqb_refl in G.
  destruct (seqr_kept (a ++ [LSeqr m (Some q) ad]) b m (Some q) ad (p_auto (mp (fst (run a)) m))) as (au & E).
  - assert (X := nm_mono a [LSeqr m (Some q) ad]). lia.
  - exact F.
  - rewrite run_snoc. exact G.
  - unfold fields in E. cbn [fst] in E. injection E as E1 E2 _. auto.
Qed.
Print Assumptions C184_sequencer.

(** Without one there is none, whatever was set on the maps below. Prediction: likewise by the
    top map alone. *)
Lemma fresh_fields ls : forall m, m < nm (fst (run ls)) -> exists a b, ls = a ++ b /\ m < nm (fst (run a)) /\ fields (mp (fst (run a)) m) = (None, None, false, true).
Proof.
  induction ls as [|x ls IH] using rev_ind; intros m Hm; [cbn in Hm; lia|].
  destruct (Nat.lt_ge_cases m (nm (fst (run ls)))) as [H|H].
  - destruct (IH m H) as (a & b & -> & H1 & H2). exists a, (b ++ [x]). rewrite app_assoc. auto.
  - exists (ls ++ [x]), []. rewrite app_nil_r. split; [reflexivity|]. split; [exact Hm|]. rewrite run_snoc in *. cbn [fst] in *.
    destruct (nm_step (fst (run ls)) x) as [E|(E & F)]; [lia|]. assert (m = nm (fst (run ls))) by lia. now subst.
Qed.
Theorem C184_none ls m l :
  m < nm (fst (run ls)) -> Forall (fun x => ~ sets_seqr x m) ls ->
  (forall p, ~ In (OJoined p m) (snd (run ls))) -> under (snd (run ls)) m l ->
  used_seqr (fst (run ls)) l = None /\ used_adapter (fst (run ls)) l = None.
Proof.
  intros Hm F N U. unfold used_seqr, used_adapter. rewrite (top_run ls m l Hm N U). destruct (fresh_fields ls m Hm) as (a & b & -> & Ha & E).
  apply Forall_app in F as (_ & F). destruct (seqr_kept a b m None None false Ha F) as (au & E'); [now rewrite E|].
  unfold fields in E'. cbn [fst] in E'. injection E' as -> -> _. auto.
Qed.
Print Assumptions C184_none.
Theorem C184_predict ls m l :
  m < nm (fst (run ls)) -> (forall p, ~ In (OJoined p m) (snd (run ls))) -> under (snd (run ls)) m l ->
  (forall a on b, ls = a ++ LAuto m on :: b -> m < nm (fst (run a)) -> Forall (fun x => ~ sets_auto x m) b -> predicts (fst (run ls)) l = on) /\
  (Forall (fun x => ~ sets_auto x m) ls -> predicts (fst (run ls)) l = false).
Proof.
  intros Hm N U. unfold predicts. rewrite (top_run ls m l Hm N U). split.
  - intros a on b -> Ha F. change (a ++ LAuto m on :: b) with (a ++ [LAuto m on] ++ b). rewrite app_assoc.
    apply auto_kept; [assert (X := nm_mono a [LAuto m on]); lia|exact F|]. rewrite run_snoc. cbn [fst].
    destruct (fields_step _ _ (LAuto m on) m (proj1 (run_inv a)) Ha) as (G & _). cbn [set_of] in G. unfold fields in G. cbn [fst] in G. rewrite Nat.eqb_refl in G. congruence.
  - intros F. destruct (fresh_fields ls m Hm) as (a & b & -> & Ha & E). apply Forall_app in F as (_ & F). apply auto_kept; [exact Ha|exact F|].
    unfold fields in E. congruence.
Qed.
Print Assumptions C184_predict.

(** set_check_on_read: a map has the value of the last call that was on it or on a map above
    it at that time; without one it checks. *)
Lemma check_kept a b l : l < nm (fst (run a)) ->
  (forall b1 x b2, b = b1 ++ x :: b2 -> ~ sets_check (fst (run (a ++ b1))) (snd (run (a ++ b1))) x l) ->
  checks (fst (run (a ++ b))) l = checks (fst (run a)) l.
Proof.
  unfold checks. intros Hl. induction b as [|y b IH] using rev_ind; intros H; [now rewrite app_nil_r|]. rewrite app_assoc, run_snoc. cbn [fst].
  destruct (fields_step _ _ y l (proj1 (run_inv (a ++ b)))) as (_ & [(m' & on & _ & X & _)|(_ & ->)]); [assert (X := nm_mono a b); lia| |].
  - exfalso. apply (H b y []); [reflexivity|exact X].
  - apply IH. intros b1 x b2 ->. apply (H b1 x (b2 ++ [y])). rewrite <- app_assoc. reflexivity.
Qed.
Theorem C184_check a b l :
  let quiet_after pre := forall b1 x b2, b = b1 ++ x :: b2 -> ~ sets_check (fst (run (pre ++ b1))) (snd (run (pre ++ b1))) x l in
  (forall m on, m < nm (fst (run a)) -> under (snd (run a)) m l -> quiet_after (a ++ [LCheck m on]) ->
     checks (fst (run (a ++ LCheck m on :: b))) l = on) /\
  (nm (fst (run a)) = l -> l < nm (fst (run (a ++ b))) -> quiet_after a -> checks (fst (run (a ++ b))) l = true).
Proof.
  intros qa. split.
  - intros m on Hm U Q. destruct (run_inv a) as (V & _). assert (Hl := under_exists _ _ _ _ (proj1 V) Hm U).
    change (a ++ LCheck m on :: b) with (a ++ [LCheck m on] ++ b). rewrite app_assoc, check_kept.
    + rewrite run_snoc. cbn [fst]. destruct (fields_step _ _ (LCheck m on) l V Hl) as (_ & [(m' & on' & [= <- <-] & _ & E)|(Nn & _)]); [exact E|].
      exfalso. apply Nn. cbn. auto.
    + assert (X := nm_mono a [LCheck m on]). lia.
    + exact Q.
  - intros El Hl Q. revert Hl Q. unfold qa. clear qa. induction b as [|y b IH] using rev_ind; [rewrite app_nil_r; lia|].
    intros Hl Q. rewrite app_assoc, run_snoc in *. cbn [fst] in *. destruct (Nat.lt_ge_cases l (nm (fst (run (a ++ b))))) as [H|H].
    + destruct (fields_step _ _ y l (proj1 (run_inv (a ++ b))) H) as (_ & [(m' & on & _ & X & _)|(_ & E)]).
      * exfalso. apply (Q b y []); [reflexivity|exact X].
      * unfold checks in *. rewrite E. apply IH; [exact H|]. intros b1 x b2 ->. apply (Q b1 x (b2 ++ [y])). rewrite <- app_assoc. reflexivity.
    + destruct (nm_step (fst (run (a ++ b))) y) as [E|(E & F)]; [lia|]. assert (X : l = nm (fst (run (a ++ b)))) by lia.
      unfold checks. rewrite X. unfold fields in F. congruence.
Qed.
Print Assumptions C184_check.
Example C184_example :
  let s := fst (run (ex_run ++ [LSeqr 1 (Some 5) (Some 6); LAuto 1 true; LCheck 0 false])) in
  used_seqr s 1 = None /\ predicts s 1 = false /\ checks s 1 = false /\ checks s 2 = true /\
  let t := fst (run (ex_run ++ [LSeqr 0 (Some 7) (Some 8); LAuto 0 true; LSub 0 2; LCheck 1 false])) in
  used_seqr t 2 = Some 7 /\ used_adapter t 1 = Some 8 /\ predicts t 2 = true /\ checks t 2 = true.
Proof. repeat split; vm_compute; reflexivity. Qed.
(** A map that becomes a submap loses its own sequencer for accesses, and does not take over
    check_on_read. *)
Example C184_sub_limit :
  let l := [LBlock None; LBlock (Some 0); LMap 0; LMap 1; LSeqr 1 (Some 5) None; LCheck 0 false] in
  used_seqr (fst (run l)) 1 = Some 5 /\ used_seqr (fst (run (l ++ [LSub 0 1]))) 1 = None /\
  checks (fst (run (l ++ [LSub 0 1]))) 1 = true /\ checks (fst (run (l ++ [LSub 0 1]))) 0 = false.
Proof. repeat split; vm_compute; reflexivity. Qed.
