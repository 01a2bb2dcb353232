(** Properties C149-C152: packing and unpacking objects with field macros. *)
From Coq Require Import ZArith List Bool Arith Lia ZifyBool ZifyNat.
From Verif Require Import Prelude PyList PackerModel PackerSpec PackerProofs PkoModel PkoSpec PkoProofs PkoProofs2.
Import ListNotations.
Local Open Scope Z_scope.

Lemma free_nil h o fs : free h o fs [].
Proof. intros a f c []. Qed.
Lemma free_of h o cyc : (forall a, In a cyc -> ~ below h o a) -> free h o (flds (h o)) cyc.
Proof. intros H a f c HA HF HC. split; [intros ->; apply (H c HA); eapply b_one; eauto|intros HB; apply (H a HA); eapply b_more; eauto]. Qed.
Lemma sim_refl h : sim h h.
Proof. intros x. split; [reflexivity|]. intros f. now left. Qed.
Lemma values_length h L : length (values h L) = length L.
Proof. apply map_length. Qed.

(** C149: the packed bits are the int fields, 32 bits each, in order. *)
Theorem C149_layout : forall h o L big cyc, ints h o L -> Forall word (values h L) ->
  (forall a, In a cyc -> ~ below h o a) ->
  exists n, forall fuel, (n <= fuel)%nat -> exists m,
    pack false fuel h big cyc o = Done (32 * Z.of_nat (length L), m) cyc /\ is_bits big (values h L) m.
Proof.
  intros h o L big cyc HW HF HC. destruct (pack_walk h o _ L HW) as [n HP]. exists n. intros fuel Hn.
  specialize (HP fuel (Pk big 0 0 0) cyc Hn (free_of _ _ _ HC)). destruct (pack_words big (values h L) HF) as (q & E & HB & HCo & HI).
  rewrite E in HP. cbn [same_out] in HP. unfold pack, m_pack. rewrite HP. exists (m_bits q). cbn [set_packed_size psize m_bits].
  rewrite HCo, values_length. split; auto.
Qed.
Print Assumptions C149_layout.
(** Little endian packing accepts all ints; those that do not fit run into the later ones. *)
Theorem C149_little_endian : forall h o L cyc, ints h o L -> (forall a, In a cyc -> ~ below h o a) ->
  exists n, forall fuel, (n <= fuel)%nat ->
    pack false fuel h false cyc o = Done (32 * Z.of_nat (length L), lor_all (values h L)) cyc.
Proof.
  intros h o L cyc HW HC. destruct (pack_walk h o _ L HW) as [n HP]. exists n. intros fuel Hn.
  specialize (HP fuel (Pk false 0 0 0) cyc Hn (free_of _ _ _ HC)). rewrite pack_words_little in HP by (cbn; auto; lia).
  cbn [same_out count m_bits psize] in HP. unfold pack, m_pack. rewrite HP. cbn [set_packed_size psize m_bits count].
  rewrite values_length, Z.lor_0_l, Z.shiftl_0_r. f_equal.
Qed.
Print Assumptions C149_little_endian.
(** Big endian packing, the default, fails at the first int that does not fit. *)
Theorem C149_big_endian : forall h o L cyc pre z post, ints h o L -> (forall a, In a cyc -> ~ below h o a) ->
  values h L = pre ++ z :: post -> Forall word pre -> ~ word z ->
  exists n, forall fuel, (n <= fuel)%nat ->
    if z <? 0 then pack false fuel h true cyc o = Forever else exists cyc', pack false fuel h true cyc o = Raised cyc'.
Proof.
  intros h o L cyc pre z post HW HC HV HF HZ. destruct (pack_walk h o _ L HW) as [n HP]. exists n. intros fuel Hn.
  specialize (HP fuel (Pk true 0 0 0) cyc Hn (free_of _ _ _ HC)). rewrite HV, pack_words_bad in HP by auto.
  unfold pack, m_pack. destruct (z <? 0); cbn [same_out] in HP; [now rewrite HP|]. destruct HP as [path ->]. eauto.
Qed.
Print Assumptions C149_big_endian.
(** With the reference policy, objects are left out: only the ints of the object itself are packed. *)
Fixpoint own (h : heap) (o : nat) (fs : list (nat * bool)) : list Z :=
  match fs with
  | [] => []
  | (f, true) :: fs => match att (h o) f with VInt z => z :: own h o fs | _ => own h o fs end
  | _ :: fs => own h o fs
  end.
Theorem C149_reference : forall h o big fuel cyc,
  (forall f, In (f, true) (flds (h o)) -> (exists z, att (h o) f = VInt z /\ word z) \/ exists c, att (h o) f = VObj c) ->
  exists m, pack true (S fuel) h big cyc o = Done (32 * Z.of_nat (length (own h o (flds (h o)))), m) cyc /\
    is_bits big (own h o (flds (h o))) m.
Proof.
  intros h o big fuel cyc HA. unfold pack, m_pack.
  assert (HW : forall fs, incl fs (flds (h o)) -> Forall word (own h o fs)).
  { induction fs as [|[f []] fs IH]; intros HI; cbn [own]; auto.
    - assert (HT : incl fs (flds (h o))) by (intros x Hx; apply HI; now right). specialize (IH HT).
      destruct (HA f (HI _ (or_introl eq_refl))) as [(z & -> & Hz)|[c ->]]; auto.
    - apply IH. intros x Hx. apply HI. now right. }
  assert (HE : forall fs p, incl fs (flds (h o)) ->
    match pack_fields p (words (own h o fs)) with Ok q => pack_each (pack_object true (S fuel) h) h o fs p cyc = Done q cyc | _ => True end).
  { induction fs as [|[f []] fs IH]; intros p HI; cbn [own].
    - reflexivity.
    - assert (HT : incl fs (flds (h o))) by (intros x Hx; apply HI; now right).
      cbn [pack_each]. destruct (HA f (HI _ (or_introl eq_refl))) as [(z & -> & Hz)|[c ->]].
      + cbn [words map pack_fields]. change int_bits with 32. destruct (pack_field_int p z 32); cbn [bind]; auto. apply IH; auto.
      + replace (pack_object true (S fuel) h p cyc c) with (Done p cyc); [apply IH; auto|]. cbn [pack_object].
        destruct (mem c cyc) eqn:EM; auto. apply mem_out in EM. now rewrite del_cons.
    - cbn [pack_each]. apply IH. intros x Hx. apply HI. now right. }
  destruct (pack_words big _ (HW _ (incl_refl _))) as (q & E & _ & HCo & HI). specialize (HE _ (Pk big 0 0 0) (incl_refl _)). rewrite E in HE. rewrite HE.
  exists (m_bits q). cbn [set_packed_size psize m_bits]. rewrite HCo. split; auto.
Qed.
Print Assumptions C149_reference.

(** An object with an int, an object that is used twice, an excluded field and another int. *)
Definition eh : heap := fun o =>
  match o with
  | 0%nat => Object [(0, true); (1, true); (2, false); (3, true); (4, true)]%nat
         (fun f => match f with 0%nat => VInt 5 | 1%nat => VObj 1 | 2%nat => VBad | 3%nat => VObj 1 | _ => VInt 6 end)
  | 1%nat => Object [(0, true)]%nat (fun _ => VInt 7)
  | 2%nat => Object [(0, true); (1, true)]%nat (fun f => match f with 0%nat => VInt 0 | _ => VObj 3 end)
  | _ => Object [(0, true); (1, true)]%nat (fun _ => VInt 0)
  end.
Definition eL : list (nat * nat) := [(0, 0); (1, 0); (1, 0); (0, 4)]%nat.
Lemma eh_ints : ints eh 0 eL.
Proof.
  unfold ints. cbn. eapply w_int; [reflexivity|]. apply (w_obj eh 0%nat 1%nat 1%nat _ [(1, 0)]%nat [(1, 0); (0, 4)]%nat); [reflexivity| |].
  { cbn. eapply w_int; [reflexivity|constructor]. }
  apply w_skip. apply (w_obj eh 0%nat 3%nat 1%nat _ [(1, 0)]%nat [(0, 4)]%nat); [reflexivity| |].
  { cbn. eapply w_int; [reflexivity|constructor]. }
  eapply w_int; [reflexivity|constructor].
Qed.
Example C149_example : ints eh 0 eL /\ values eh eL = [5; 7; 7; 6] /\
  pack false 2 eh false [] 0 = Done (128, 5 + 7 * 2 ^ 32 + 7 * 2 ^ 64 + 6 * 2 ^ 96) [].
Proof. split; [exact eh_ints|]. split; reflexivity. Qed.
Example C149_reference_example : pack true 1 eh false [] 0 = Done (64, 5 + 6 * 2 ^ 32) [] /\ own eh 0 (flds (eh 0%nat)) = [5; 6].
Proof. split; reflexivity. Qed.
(** An object that refers to itself is packed twice. *)
Example C149_self_example :
  let h : heap := fun _ => Object [(0, true); (1, true)]%nat (fun f => match f with 0%nat => VInt 5 | _ => VObj 0 end) in
  pack false 3 h false [] 0 = Done (64, 5 + 5 * 2 ^ 32) [].
Proof. reflexivity. Qed.

(** C150: unpacking a bit stream. *)
Theorem C150_unpack : forall dec h o L big cyc bits, ints h o L -> (forall a, In a cyc -> ~ below h o a) -> 0 <= bits ->
  exists n vs, (forall fuel, (n <= fuel)%nat -> exists h',
      unpack dec fuel h big cyc o bits = Done (h', 32 * Z.min (Z.of_nat (length L)) (num_bits bits / 32)) cyc /\
      heq h' (fill h L vs)) /\
    length vs = length L /\
    forall i, (i < length L)%nat -> exists v, nth_error vs i = Some v /\
      if 32 * Z.of_nat (S i) <=? num_bits bits
      then word v /\ forall j, 0 <= j < 32 -> word_bit big v j = Z.testbit bits (32 * Z.of_nat i + j)
      else v = 0.
Proof.
  intros dec h o L big cyc bits HW HC HB. destruct (unpack_walk dec h o _ L HW) as [n HU].
  destruct (read_words (length L) (put_bits (Pk big 0 0 0) bits)) as (vs & E & HL & HV); [exact HB|cbn; lia|].
  exists n, vs. split; [|split; auto].
  - intros fuel Hn. destruct (fun A B => HU fuel h (put_bits (Pk big 0 0 0) bits) cyc _ vs Hn A B E) as (h' & E' & Q).
    + apply sim_refl.
    + now apply free_of.
    + exists h'. unfold unpack. rewrite E'. split; [|exact Q]. cbn [set_packed_size psize count put_bits be]. f_equal. f_equal.
      rewrite Z.sub_0_r. assert (0 <= num_bits bits / 32) by (apply Z.div_pos; [pose proof (num_bits_pos bits); lia|lia]). lia.
  - intros i Hi. destruct (HV i Hi) as (v & Ev & H). exists v. split; auto. cbn [count psize put_bits m_bits be] in H.
    replace (0 + 32 * Z.of_nat (S i)) with (32 * Z.of_nat (S i)) in H by lia. destruct (_ <=? _); auto. destruct H as [H1 H2]. split; auto.
    intros j Hj. unfold word_bit. rewrite H2 by (destruct big; lia). f_equal. destruct big; lia.
Qed.
Print Assumptions C150_unpack.

(** Packing one object and unpacking the bits into another: the last value that is not 0 is lost
    unless its last bit in the stream is set (big endian: unless it is odd). *)
Theorem C150_round_trip : forall dec h o1 L1 o2 L2 big, ints h o1 L1 -> ints h o2 L2 -> length L1 = length L2 ->
  Forall word (values h L1) ->
  exists n m vs, (forall fuel, (n <= fuel)%nat -> exists h' used,
      pack false fuel h big [] o1 = Done (32 * Z.of_nat (length L1), m) [] /\
      unpack dec fuel h big [] o2 m = Done (h', used) [] /\ heq h' (fill h L2 vs)) /\
    length vs = length L1 /\
    forall i z, nth_error (values h L1) i = Some z ->
      (survives big (values h L1) i -> nth_error vs i = Some z) /\ (~ survives big (values h L1) i -> nth_error vs i = Some 0).
Proof.
  intros dec h o1 L1 o2 L2 big W1 W2 HL HF.
  destruct (C149_layout h o1 L1 big [] W1 HF) as [n1 H1]; [intros ? []|].
  destruct (H1 n1 (le_n _)) as (m & E1 & HI).
  destruct (C150_unpack dec h o2 L2 big [] m W2) as (n2 & vs & H2 & HLen & HV); [intros ? []|apply HI|].
  exists (Nat.max n1 n2), m, vs. split; [|split; [congruence|]].
  - intros fuel Hn. destruct (H1 fuel ltac:(lia)) as (m' & E & HI'). destruct (H2 fuel ltac:(lia)) as (h' & Eu & Q).
    exists h'. eexists. split; [|split; [exact Eu|exact Q]]. rewrite E. f_equal. f_equal.
    destruct HI as [HM HB], HI' as [HM' HB']. rewrite values_length in HM, HM'. apply bits_eq_bounded with (32 * Z.of_nat (length L1)); auto.
    intros b Hb. pose proof (Z.div_mod b 32 ltac:(lia)) as HD. pose proof (Z.mod_pos_bound b 32 ltac:(lia)) as HR.
    assert (HX : exists z, nth_error (values h L1) (Z.to_nat (b / 32)) = Some z).
    { destruct (nth_error _ _) as [z|] eqn:EN; [eauto|]. apply nth_error_None in EN. rewrite values_length in EN.
      assert (0 <= b / 32) by (apply Z.div_pos; lia). lia. }
    destruct HX as (z & Ez). rewrite HD. replace (b / 32) with (Z.of_nat (Z.to_nat (b / 32))) by (rewrite Z2Nat.id; auto; apply Z.div_pos; lia).
    rewrite (HB _ z _ Ez HR), (HB' _ z _ Ez HR). reflexivity.
  - intros i z Ez. assert (Hi : (i < length (values h L1))%nat) by (apply nth_error_Some; congruence).
    pose proof (survives_iff big _ m i HF HI Hi) as HS. rewrite values_length in Hi. destruct (HV i ltac:(lia)) as (v & Ev & Hv). split.
    + intros HSu. apply HS in HSu. replace (_ <=? _) with true in Hv by lia. destruct Hv as [Hw Hb]. rewrite Ev. f_equal.
      eapply word_eq; eauto. intros j Hj. specialize (Hb (if big then 31 - j else j) ltac:(destruct big; lia)). rewrite <- Hb. unfold word_bit.
      f_equal. destruct big; lia.
    + intros HN. replace (32 * Z.of_nat (S i) <=? num_bits m) with false in Hv; [now subst|]. symmetry. apply Z.leb_gt.
      destruct (Z.lt_ge_cases (num_bits m) (32 * Z.of_nat (S i))); auto. exfalso. apply HN, HS. lia.
Qed.
Print Assumptions C150_round_trip.
Example C150_example : ints eh 0 eL /\ ints eh 2 [(2, 0); (3, 0); (3, 1)]%nat /\
  (exists h', unpack (fun _ => true) 3 eh false [] 2 (5 + 7 * 2 ^ 32 + 0x80000001 * 2 ^ 64) = Done (h', 96) [] /\
     values h' [(2, 0); (3, 0); (3, 1)]%nat = [5; 7; 0x80000001]) /\
  (exists h', unpack (fun _ => true) 3 eh false [] 2 (5 + 7 * 2 ^ 32 + 1 * 2 ^ 64) = Done (h', 64) [] /\
     values h' [(2, 0); (3, 0); (3, 1)]%nat = [5; 7; 0]).
Proof.
  split; [exact eh_ints|]. split.
  { unfold ints. cbn. eapply w_int; [reflexivity|]. apply (w_obj eh 2%nat 1%nat 3%nat _ [(3, 0); (3, 1)]%nat []); [reflexivity| |constructor].
    cbn. do 2 (eapply w_int; [reflexivity|]). constructor. }
  split; eexists; split; vm_compute; reflexivity.
Qed.
(** A lone field with value 2, default packer: packed as 2, unpacked as 0. *)
Theorem C150_even_limit : let h : heap := fun o => Object [(0, true)]%nat (fun _ => if Nat.eqb o 0 then VInt 2 else VInt 9) in
  pack false 1 h true [] 0 = Done (32, 2 ^ 30) [] /\
  exists h', unpack (fun _ => true) 1 h true [] 1 (2 ^ 30) = Done (h', 0) [] /\ att (h' 1%nat) 0%nat = VInt 0.
Proof. split; [reflexivity|]. eexists. split; vm_compute; reflexivity. Qed.
Print Assumptions C150_even_limit.

(** Unpacking from the packer that packed is exact. *)
Theorem C150_same_packer : forall dec h o1 L1 o2 L2 big, ints h o1 L1 -> ints h o2 L2 -> length L1 = length L2 ->
  ~ below h o2 o2 -> Forall word (values h L1) ->
  exists n, forall fuel, (n <= fuel)%nat -> exists p h' q,
    m_pack false fuel h big [] o1 = Done p [] /\ unpack_object dec fuel h p [] o2 = Done (h', q) [] /\
    heq h' (fill h L2 (values h L1)) /\ psize q = 32 * Z.of_nat (length L1) /\ count q = psize q.
Proof.
  intros dec h o1 L1 o2 L2 big W1 W2 HL HN HF. destruct (pack_walk h o1 _ L1 W1) as [n1 H1]. destruct (unpack_walk dec h o2 _ L2 W2) as [n2 H2].
  destruct (pack_words big (values h L1) HF) as (q & E & HB & HC & HI).
  destruct (read_words (length L2) (set_packed_size q)) as (vs & Er & HLen & HV); [apply HI|cbn; lia|].
  exists (S (Nat.max n1 n2)). intros [|fuel] Hn; [lia|]. specialize (H1 (S fuel) (Pk big 0 0 0) [] ltac:(lia) (free_nil _ _ _)).
  rewrite E in H1. cbn [same_out] in H1. exists (set_packed_size q). unfold m_pack. rewrite H1.
  assert (HFr : free h o2 (flds (h o2)) [o2]) by (apply free_of; intros a [<-|[]]; exact HN).
  destruct (H2 fuel h (set_packed_size q) [o2] _ vs ltac:(lia) (sim_refl h) HFr Er) as (h' & E' & Q).
  exists h'. eexists. split; [reflexivity|]. cbn [unpack_object mem existsb]. rewrite E', del_cons by auto. split; [reflexivity|].
  cbn [set_packed_size psize count be m_bits] in *. rewrite HC, values_length in *. rewrite Z.sub_0_r.
  replace (32 * Z.of_nat (length L1) / 32) with (Z.of_nat (length L1)) by (rewrite Z.mul_comm, Z.div_mul; lia).
  split; [|split; auto; lia]. replace (values h L1) with vs; [exact Q|].
  apply nth_error_ext. intros i. destruct (nth_error (values h L1) i) as [z|] eqn:Ez.
  - assert (Hi : (i < length (values h L1))%nat) by (apply nth_error_Some; congruence). rewrite values_length in Hi.
    destruct (HV i ltac:(lia)) as (v & Ev & Hv). rewrite Ev. f_equal. replace (_ <=? _) with true in Hv by lia. destruct Hv as [Hw Hb].
    rewrite HB in Hb. eapply word_eq; eauto.
  - apply nth_error_None in Ez. apply nth_error_None. rewrite values_length in Ez. lia.
Qed.
Print Assumptions C150_same_packer.
Example C150_same_example : 
  let h : heap := fun o => Object [(0, true); (1, true)]%nat (fun f => if Nat.eqb o 0 then VInt (Z.of_nat f) else VInt 9) in
  exists p h' q, m_pack false 1 h true [] 0 = Done p [] /\ unpack_object (fun _ => true) 1 h p [] 1 = Done (h', q) [] /\
    values h' [(1, 0); (1, 1)]%nat = [0; 1].
Proof. eexists _, _, _. split; [reflexivity|]. split; vm_compute; reflexivity. Qed.

(** C151: after an exception, objects stay marked. *)
Theorem C151_marked : forall h o big fuel cyc cyc', pack false fuel h big cyc o = Raised cyc' ->
  exists path, stops h big o path /\ cyc' = path ++ cyc.
Proof.
  intros h o big fuel cyc cyc'. unfold pack, m_pack. pose proof (proj2 (pack_stops h fuel) o (flds (h o)) (Pk big 0 0 0) cyc (incl_refl _)) as H.
  destruct (pack_each _ _ _ _ _ _) as [p c|c| |]; intros E; try discriminate. injection E as <-. exact H.
Qed.
Print Assumptions C151_marked.
(** A marked object is left out of every later pack, whatever it holds. *)
Theorem C151_left_out : forall ref h h' c o big fuel cyc, In c cyc -> o <> c -> (forall x, x <> c -> h' x = h x) ->
  pack ref fuel h' big cyc o = pack ref fuel h big cyc o.
Proof.
  intros ref h h' c o big fuel cyc HI HN HH. unfold pack, m_pack. rewrite HH by auto.
  now rewrite (proj2 (pack_skip ref h h' c fuel HH) o (flds (h o)) (Pk big 0 0 0) cyc HI HN).
Qed.
Print Assumptions C151_left_out.
(** The marks stay until one of the set_*_local methods is called. *)
Theorem C151_until : forall dec ref big fuel cs w c, In c (cyc w) -> ~ In CLocal cs ->
  In c (cyc (fold_left (fun w x => fst (run dec ref big fuel w x)) cs w)).
Proof.
  intros dec ref big fuel. induction cs as [|x cs IH]; intros w c HI HN; cbn [fold_left]; auto. apply IH; [|intros H; apply HN; now right].
  destruct x as [o|o bits| |o f v]; cbn [run].
  - unfold pack, m_pack. pose proof (pack_each_cyc ref (hp w) fuel o (flds (hp w o)) (Pk big 0 0 0) (cyc w)) as H.
    destruct (pack_each _ _ _ _ _ _) as [p k|k| |]; cbn; auto; [now subst|]. destruct H as [path ->]. apply in_or_app. auto.
  - unfold unpack. pose proof (proj2 (unpack_cyc dec fuel) o (flds (hp w o)) (hp w) (put_bits (Pk big 0 0 0) bits) (cyc w)) as H.
    destruct (unpack_each _ _ _ _ _ _ _) as [[h1 p] k|k| |]; cbn; auto; [now subst|]. destruct H as [path ->]. apply in_or_app. auto.
  - exfalso. apply HN. now left.
  - exact HI.
Qed.
Print Assumptions C151_until.
(** A set_*_local makes the next pack complete. *)
Theorem C151_cleared : forall dec w o L big, ints (hp w) o L -> Forall word (values (hp w) L) ->
  exists n, forall fuel, (n <= fuel)%nat -> exists m,
    snd (run dec false big fuel (fst (run dec false big fuel w CLocal)) (CPack o)) = RBits (32 * Z.of_nat (length L)) m /\
    is_bits big (values (hp w) L) m.
Proof.
  intros dec w o L big HI HW. destruct (C149_layout (hp w) o L big [] HI HW) as [n H]; [intros a []|]. exists n. intros fuel Hn.
  destruct (H fuel Hn) as (m & E & HB). exists m. split; auto. cbn [run fst hp cyc]. now rewrite E.
Qed.
Print Assumptions C151_cleared.
(** A call that returns leaves the marks as they were. *)
Theorem C151_balanced : forall dec ref big fuel w x n b, snd (run dec ref big fuel w x) = RBits n b \/ snd (run dec ref big fuel w x) = RUnpacked n ->
  cyc (fst (run dec ref big fuel w x)) = cyc w.
Proof.
  intros dec ref big fuel w x n b. destruct x as [o|o bits| |o f v]; cbn [run]; [| |now intros [H|H]|now intros [H|H]].
  - unfold pack, m_pack. pose proof (pack_each_cyc ref (hp w) fuel o (flds (hp w o)) (Pk big 0 0 0) (cyc w)) as H.
    destruct (pack_each _ _ _ _ _ _) as [p k|k| |]; cbn; auto. now intros [E|E].
  - unfold unpack. pose proof (proj2 (unpack_cyc dec fuel) o (flds (hp w o)) (hp w) (put_bits (Pk big 0 0 0) bits) (cyc w)) as H.
    destruct (unpack_each _ _ _ _ _ _ _) as [[h1 p] k|k| |]; cbn; auto. now intros [E|E].
Qed.
Print Assumptions C151_balanced.
(** A test bench that packs an object whose part has a field that is still None, sets the field and
    packs again: the part is missing, until a set_*_local. *)
Example C151_example :
  let h : heap := fun o => match o with 0%nat => Object [(0, true); (1, true)]%nat (fun f => match f with 0%nat => VInt 1 | _ => VObj 1 end)
                                   | _ => Object [(0, true)]%nat (fun _ => VBad) end in
  let r := run (fun _ => true) false false 5 in
  let w0 := World h [] in let w1 := fst (r w0 (CPack 0)) in let w2 := fst (r w1 (CAssign 1 0 (VInt 3))) in
  let w3 := fst (r w2 (CPack 0)) in let w4 := fst (r w3 CLocal) in
  snd (r w0 (CPack 0)) = RExn /\ cyc w1 = [1%nat] /\ snd (r w2 (CPack 0)) = RBits 32 1 /\ snd (r w4 (CPack 0)) = RBits 64 (1 + 3 * 2 ^ 32).
Proof. repeat split. Qed.
(** Packing and unpacking end for all finite structures, cyclic ones too. *)
Theorem C151_ends : forall dec ref h dom big cyc o bits, closed h dom -> In o dom ->
  pack ref (S (length dom)) h big cyc o <> NoFuel /\ unpack dec (S (length dom)) h big cyc o bits <> NoFuel.
Proof.
  intros dec ref h dom big cyc o bits HC HO.
  assert (HL : (left dom cyc < S (length dom))%nat).
  { unfold left. enough ((length (filter (fun x => negb (mem x cyc)) dom) <= length dom)%nat) by lia. clear.
    induction dom as [|x d IH]; cbn; auto. destruct (negb _); cbn; lia. }
  split.
  - unfold pack, m_pack. pose proof (proj2 (pack_ends ref h dom HC (S (length dom))) o (flds (h o)) (Pk big 0 0 0) cyc HO (incl_refl _) HL) as H.
    destruct (pack_each _ _ _ _ _ _); congruence.
  - unfold unpack. pose proof (proj2 (unpack_ends dec h dom HC (S (length dom))) o (flds (h o)) h (put_bits (Pk big 0 0 0) bits) cyc) as H.
    specialize (H ltac:(intros x; split; tauto) HO (incl_refl _) HL). destruct (unpack_each _ _ _ _ _ _ _) as [[? ?] ?|?| |]; try discriminate. destruct H.
Qed.
Print Assumptions C151_ends.
Example C151_ends_example :
  let h : heap := fun o => Object [(0, true); (1, true)]%nat (fun f => match f with 0%nat => VInt (Z.of_nat o) | _ => VObj (1 - o) end) in
  closed h [0; 1]%nat /\ pack false 3 h false [] 0 = Done (96, 0 + 1 * 2 ^ 32 + 0 * 2 ^ 64) [].
Proof. split; [|reflexivity]. intros o f c HO HF HA. cbn in *. destruct HF as [E|[E|[]]]; injection E as <-; [discriminate|]. injection HA as <-.
  destruct HO as [<-|[<-|[]]]; cbn; auto. Qed.

(** C152: strings. *)
Lemma pack_each_app rec h o a b : forall p cyc, pack_each rec h o (a ++ b) p cyc =
  match pack_each rec h o a p cyc with Done p1 c1 => pack_each rec h o b p1 c1 | e => e end.
Proof.
  induction a as [|[f []] a IH]; intros p cyc; cbn [app pack_each]; auto. destruct (att (h o) f) as [z|s|c|]; auto.
  - destruct (pack_field_int _ _ _); auto.
  - destruct (pack_string _ _); auto.
  - destruct (rec p cyc c); auto.
Qed.
Lemma unpack_each_app dec rec o a b : forall h p cyc, unpack_each dec rec h o (a ++ b) p cyc =
  match unpack_each dec rec h o a p cyc with Done (h1, p1) c1 => unpack_each dec rec h1 o b p1 c1 | e => e end.
Proof.
  induction a as [|[f []] a IH]; intros h p cyc; cbn [app unpack_each]; auto. destruct (att (h o) f) as [z|s|c|]; auto.
  - destruct (unpack_field_int _ _) as [[? ?]| |]; auto.
  - destruct (unpack_string _ _) as [[? ?]|]; auto. destruct (dec _); auto.
  - destruct (rec h p cyc c) as [[? ?] ?|?| |]; auto.
Qed.
Definition byte (b : Z) : Prop := 0 < b < 256.
Lemma bytes_num_snoc s x : bytes_num (s ++ [x]) = bytes_num s * 256 + x.
Proof. unfold bytes_num. now rewrite fold_left_app. Qed.
Lemma bytes_num_cons x s : bytes_num (x :: s) = x * 256 ^ Z.of_nat (length s) + bytes_num s /\ 
  (Forall byte s -> 0 <= bytes_num s < 256 ^ Z.of_nat (length s)).
Proof.
  induction s as [|y s IH] using rev_ind; [cbn; split; [lia|intros _; lia]|].
  destruct IH as [IH1 IH2]. rewrite app_comm_cons, !bytes_num_snoc, IH1, app_length. cbn [length]. rewrite Nat2Z.inj_add. cbn [Z.of_nat Pos.of_succ_nat].
  rewrite Z.pow_add_r by lia. split; [lia|]. intros HF. apply Forall_app in HF. destruct HF as [HF HY]. inversion HY as [|? ? Hy _]; subst.
  specialize (IH2 HF). unfold byte in Hy. change (256 ^ 1) with 256. lia.
Qed.
Lemma ustr m ps : forall s fuel c i acc k, (length s < fuel)%nat -> Forall byte s -> 0 <= c -> Z.shiftr m c = bytes_num s ->
  ps - c = 8 * zlen s - k -> 0 <= k < 8 ->
  let s' := if k =? 0 then s else tl s in
  ustr_loop fuel (Pk false c m ps) (-1) true i acc = Some (Pk false (c + 8 * zlen s') m ps, s' ++ acc).
Proof.
  induction s as [|x s IH] using rev_ind; intros fuel c i acc k Hf HF Hc Hm Hk Hk8 s'.
  - destruct fuel as [|fuel]; [cbn in Hf; lia|]. cbn [ustr_loop]. unfold enough_bits. cbn [psize count]. unfold zlen in Hk. cbn in Hk.
    replace (negb _) with false by lia. cbn [andb]. subst s'. destruct (k =? 0); cbn; do 2 f_equal; f_equal; lia.
  - destruct fuel as [|fuel]; [lia|]. rewrite app_length in Hf. cbn [length] in Hf. apply Forall_app in HF. destruct HF as [HF HX].
    inversion HX as [|? ? Hx _]; subst. unfold byte in Hx. unfold zlen in Hk. rewrite app_length in Hk. cbn [length] in Hk.
    rewrite bytes_num_snoc in Hm. cbn [ustr_loop]. unfold enough_bits. cbn [psize count m_bits be].
    destruct (ps - c <? 8) eqn:EB.
    + cbn [negb andb]. assert (s = []) by (destruct s; [auto|cbn [length] in Hk; lia]). subst s. cbn [length] in Hk. subst s'.
      replace (k =? 0) with false by lia. cbn. do 2 f_equal. f_equal. lia.
    + assert (HL : Z.land (Z.shiftr m c) 255 = x).
      { rewrite Hm. change 255 with (Z.ones 8). rewrite Z.land_ones by lia. change (2 ^ 8) with 256. rewrite Z.add_comm, Z.mod_add by lia. apply Z.mod_small. lia. }
      rewrite HL. replace (negb (x =? 0)) with true by lia. cbn [negb andb orb]. rewrite orb_true_r.
      rewrite (IH fuel (c + 8) (i + 1) (x :: acc) k); auto; try lia.
      * subst s'. destruct (k =? 0) eqn:EK.
        -- rewrite <- app_assoc. cbn [app]. do 2 f_equal. f_equal. unfold zlen. rewrite app_length. cbn [length]. lia.
        -- destruct s as [|y s]; [cbn [length] in Hk; lia|]. cbn [tl app]. rewrite <- app_assoc. cbn [app]. do 2 f_equal. f_equal.
           unfold zlen. rewrite app_length. cbn [length]. lia.
      * rewrite <- Z.shiftr_shiftr, Hm by lia. rewrite Z.shiftr_div_pow2 by lia. change (2 ^ 8) with 256. rewrite Z.div_add_l by lia.
        rewrite Z.div_small by lia. lia.
      * unfold zlen. lia.
Qed.
Lemma num_bits_log2 m : 0 < m -> num_bits m = Z.log2 m + 1.
Proof. intros H. destruct m as [|[p|p|]|]; cbn; lia. Qed.
Lemma num_bits_shift x r n : 0 < x -> 0 <= n -> 0 <= r < 2 ^ n -> num_bits (x * 2 ^ n + r) = num_bits x + n.
Proof.
  intros Hx Hn Hr. assert (HP : 0 < 2 ^ n) by (apply Z.pow_pos_nonneg; lia). rewrite !num_bits_log2 by nia.
  enough (Z.log2 (x * 2 ^ n + r) = Z.log2 x + n) by lia. pose proof (Z.log2_spec x Hx) as [H1 H2]. pose proof (Z.log2_nonneg x).
  apply Z.log2_unique; [lia|]. rewrite <- Z.add_succ_l, !Z.pow_add_r by lia. nia.
Qed.

(** Which characters of a string survive packing and unpacking the bits, little endian *)
Definition kept (s : list Z) : list Z := match s with x :: t => if x <? 128 then t else s | [] => [] end.
Theorem C152_last_string : forall dec h o1 f1 g1 L1 s o2 f2 g2 L2 s2,
  flds (h o1) = f1 ++ [(g1, true)] -> walk h o1 f1 L1 -> att (h o1) g1 = VStr s -> s <> [] -> Forall byte s ->
  flds (h o2) = f2 ++ [(g2, true)] -> walk h o2 f2 L2 -> att (h o2) g2 = VStr s2 -> length L1 = length L2 ->
  Forall word (values h L1) -> dec (kept s) = true ->
  exists n m, forall fuel, (n <= fuel)%nat -> exists h' used,
    pack false fuel h false [] o1 = Done (32 * Z.of_nat (length L1) + 8 * zlen s, m) [] /\
    unpack dec fuel h false [] o2 m = Done (h', used) [] /\
    heq h' (set (fill h L2 (values h L1)) o2 g2 (VStr (kept s))).
Proof.
  intros dec h o1 f1 g1 L1 s o2 f2 g2 L2 s2 F1 W1 A1 HS HB F2 W2 A2 HL HW HD.
  destruct (pack_walk h o1 _ L1 W1) as [n1 H1]. destruct (unpack_walk dec h o2 _ L2 W2) as [n2 H2].
  destruct (pack_words false (values h L1) HW) as (q & E & Hbe & HC & HI). rewrite values_length in HC.
  set (N := Z.of_nat (length L1)) in *. assert (HN : 0 <= N) by (unfold N; lia).
  destruct s as [|x t]; [congruence|]. inversion HB as [|? ? Hx HT]; subst. unfold byte in Hx.
  destruct (bytes_num_cons x t) as [HBN HBR]. specialize (HBR HT). set (bn := bytes_num (x :: t)) in *.
  assert (H256 : 256 ^ Z.of_nat (length t) = 2 ^ (8 * Z.of_nat (length t))) by (rewrite Z.pow_mul_r by lia; reflexivity).
  assert (Hbn : 0 < bn) by nia.
  set (m := Z.lor (m_bits q) (Z.shiftl bn (32 * N))). pose proof HI as [HM HBits]. rewrite values_length in HM. fold N in HM.
  assert (Hm : m = bn * 2 ^ (32 * N) + m_bits q).
  { unfold m. rewrite Z.shiftl_mul_pow2 by lia. rewrite Z.lor_comm.
    enough (HLa : Z.land (bn * 2 ^ (32 * N)) (m_bits q) = 0) by (rewrite Z.add_nocarry_lxor, Z.lxor_lor by exact HLa; reflexivity). apply Z.bits_inj'. intros b Hb0. rewrite Z.bits_0, Z.land_spec.
    destruct (Z.lt_ge_cases b (32 * N)).
    - rewrite Z.mul_pow2_bits_low by lia. reflexivity.
    - rewrite (testbit_above (m_bits q) (32 * N)) by lia. apply andb_false_r. }
  assert (Hm0 : 0 <= m) by (rewrite Hm; nia).
  assert (Hnb : num_bits m = 32 * N + 8 * Z.of_nat (length t) + num_bits x).
  { rewrite Hm, num_bits_shift by lia. rewrite HBN, H256, num_bits_shift by lia. lia. }
  assert (Hx8 : 1 <= num_bits x <= 8).
  { split; [apply num_bits_pos|]. rewrite num_bits_log2 by lia. assert (Z.log2 x < 8) by (apply Z.log2_lt_pow2; lia). lia. }
  set (P := put_bits (Pk false 0 0 0) m).
  destruct (read_words (length L2) P) as (vs & Er & HLen & HV); [exact Hm0|cbn; lia|].
  assert (Hvs : vs = values h L1).
  { apply nth_error_ext. intros i. destruct (nth_error (values h L1) i) as [z|] eqn:Ez.
    - assert (Hi : (i < length (values h L1))%nat) by (apply nth_error_Some; congruence). rewrite values_length in Hi.
      destruct (HV i ltac:(lia)) as (v & Ev & Hv). rewrite Ev. f_equal. cbn [P put_bits count psize m_bits be] in Hv. rewrite Hnb in Hv.
      replace (_ <=? _) with true in Hv by (unfold N; lia). destruct Hv as [Hw Hv].
      eapply (word_eq false (m_bits q)); eauto. intros j Hj. rewrite Hv by auto. replace (0 + 32 * Z.of_nat i + j) with (32 * Z.of_nat i + j) by lia.
      unfold m. rewrite Z.lor_spec, Z.shiftl_spec_low by (unfold N; lia). apply orb_false_r.
    - apply nth_error_None in Ez. apply nth_error_None. rewrite values_length in Ez. lia. }
  subst vs. exists (Nat.max n1 n2), m. intros fuel Hn.
  specialize (H1 fuel (Pk false 0 0 0) [] ltac:(lia) (free_nil _ _ _)). rewrite E in H1. cbn [same_out] in H1.
  destruct (H2 fuel h P [] _ (values h L1) ltac:(lia) (sim_refl h) (free_nil _ _ _) Er) as (h' & E' & Q).
  cbn [P put_bits count psize m_bits be] in E'. fold P in E'.
  replace (0 + 32 * Z.min (Z.of_nat (length L2)) (Z.max 0 ((num_bits m - 0) / 32))) with (32 * N) in E'.
  2: { assert (N <= (num_bits m - 0) / 32) by (apply Z.div_le_lower_bound; lia). unfold N in *. lia. }
  eexists _, _. split; [|split].
  - unfold pack, m_pack. rewrite F1, pack_each_app, H1. cbn [pack_each]. rewrite A1. unfold pack_string. rewrite Hbe. cbn [bind]. fold bn. rewrite HC. fold N. fold m.
    cbn [set_packed_size psize m_bits count]. reflexivity.
  - unfold unpack. rewrite F2, unpack_each_app. change (put_bits (Pk false 0 0 0) m) with P. rewrite E'. cbn [unpack_each].
    destruct (Q o2) as [_ HQ]. rewrite HQ.
    assert (HA : att (fill h L2 (values h L1) o2) g2 = VStr s2).
    { assert (HS2 : sim (fill h L2 (values h L1)) h) by (apply sim_fill; [eapply walk_ints; eauto|apply sim_refl]).
      destruct (proj2 (HS2 o2) g2) as [A|(a & b & _ & B)]; congruence. }
    rewrite HA. unfold unpack_string. cbn [psize count be m_bits]. replace (-1 =? -1) with true by reflexivity.
    rewrite (ustr m (num_bits m) (x :: t) _ (32 * N) 0 [] (8 - num_bits x)); cbn [length]; try lia; auto.
    + unfold enough_bits. cbn [psize count].
      assert (HK : (if 8 - num_bits x =? 0 then x :: t else tl (x :: t)) = kept (x :: t)).
      { cbn [kept tl]. destruct (x <? 128) eqn:EX.
        - replace (8 - num_bits x =? 0) with false; auto. symmetry. apply Z.eqb_neq. rewrite num_bits_log2 by lia.
          assert (Z.log2 x < 7) by (apply Z.log2_lt_pow2; lia). lia.
        - replace (8 - num_bits x =? 0) with true; auto. symmetry. apply Z.eqb_eq. rewrite num_bits_log2 by lia.
          assert (7 <= Z.log2 x) by (apply Z.log2_le_pow2; lia). rewrite num_bits_log2 in Hx8 by lia. lia. }
      rewrite HK, app_nil_r, HD. reflexivity.
    + rewrite Hm. rewrite Z.shiftr_div_pow2, Z.div_add_l by lia. rewrite Z.div_small by lia. rewrite Z.add_0_r. reflexivity.
    + unfold zlen. cbn [length]. lia.
  - now apply heq_set.
Qed.
Print Assumptions C152_last_string.
Example C152_example :
  let h : heap := fun o => Object [(0, true); (1, true)]%nat (fun f => match f with 0%nat => VInt 5 | _ => if Nat.eqb o 0 then VStr [65; 66; 67] else VStr [] end) in
  pack false 1 h false [] 0 = Done (56, 5 + 0x414243 * 2 ^ 32) [] /\
  exists h' n, unpack (fun _ => true) 1 h false [] 1 (5 + 0x414243 * 2 ^ 32) = Done (h', n) [] /\ att (h' 1%nat) 1%nat = VStr [66; 67].
Proof. split; [reflexivity|]. eexists _, _. split; vm_compute; reflexivity. Qed.
(** The default, big endian, packer: the characters come back with their bits reversed ... *)
Theorem C152_big_endian_limit :
  let h : heap := fun o => Object [(0, true)]%nat (fun f => if Nat.eqb o 0 then VStr [67] else VStr []) in
  pack false 1 h true [] 0 = Done (8, 97) [] /\
  exists p h' q, m_pack false 1 h true [] 0 = Done p [] /\ unpack_object (fun _ => true) 1 h p [] 1 = Done (h', q) [] /\ att (h' 1%nat) 0%nat = VStr [97].
Proof. split; [reflexivity|]. eexists _, _, _. split; [reflexivity|]. split; vm_compute; reflexivity. Qed.
Print Assumptions C152_big_endian_limit.
(** ... an int after a string is taken for part of the string ... *)
Theorem C152_following_limit :
  let h : heap := fun o => Object [(0, true); (1, true)]%nat (fun f => if Nat.eqb o 0 then match f with 0%nat => VStr [65] | _ => VInt 0x04030201 end
                                                                       else match f with 0%nat => VStr [] | _ => VInt 0 end) in
  exists p h' q, m_pack false 1 h false [] 0 = Done p [] /\ unpack_object (fun _ => true) 1 h p [] 1 = Done (h', q) [] /\
    att (h' 1%nat) 0%nat = VStr [4; 3; 2; 1; 65] /\ att (h' 1%nat) 1%nat = VInt 0.
Proof. eexists _, _, _. split; [reflexivity|]. split; [vm_compute; reflexivity|]. split; reflexivity. Qed.
Print Assumptions C152_following_limit.
(** ... and an empty string cannot be packed. *)
Theorem C152_empty : forall ref h o f fs big fuel cyc, flds (h o) = (f, true) :: fs -> att (h o) f = VStr [] ->
  pack ref fuel h big cyc o = Raised cyc.
Proof. intros ref h o f fs big fuel cyc HF HA. unfold pack, m_pack. rewrite HF. cbn [pack_each]. now rewrite HA. Qed.
Print Assumptions C152_empty.
