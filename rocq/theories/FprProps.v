(** Properties of the printout of the factory. *)
From Coq Require Import List Bool Arith String Ascii Lia.
From Verif Require Import FprModel FprSpec FprProofs.
Import ListNotations.
Local Open Scope string_scope.

(** After any calls the printout is the one of the calls: the instance overrides of the type whose
    first instance override came last, the type overrides in the order in which the names were
    first overridden, and, if asked for, the types whose name still stands for them. *)
Theorem C220_text : forall h all, print (after h) all =
  printout (inst_rows h) (type_rows h) (if Nat.leb 1 all then types_part (List.length (registered h)) (listed h all) else []).
Proof. exact print_is. Qed.
Print Assumptions C220_text.

(** Every name overridden has one row, with what the override produces. *)
Theorem C220_rows : forall h, NoDup (map fst (type_rows h)) /\ forall n t, In (n, t) (type_rows h) <-> produces h n = Some t.
Proof.
  intros h. destruct (inv h) as [_ [T1 T2 T3 T4 T5 T6] _]. split.
  - assert (map fst (type_rows h) = overridden h) as ->; auto. rewrite <- tovr_rows, map_map. exact T1.
  - intros n t. unfold type_rows. rewrite in_flat_map. split.
    + intros (m & _ & I). destruct (produces h m) as [x|] eqn:E; [|easy]. destruct I as [[= -> ->]|[]]. exact E.
    + intros E. exists n. split; [|rewrite E; now left]. apply T3. congruence.
Qed.
Print Assumptions C220_rows.

(** The types listed are types registered, and without all_types=2 no name with "uvm_" anywhere in
    it is listed. *)
Theorem C220_listed : forall h all n, In n (listed h all) <->
  In n (registered h) /\ stands h n = Some n /\ (2 <= all \/ ~ exists a b, n = a ++ "uvm_" ++ b).
Proof.
  intros h all n. unfold listed. rewrite filter_In, andb_true_iff, orb_true_iff, negb_true_iff, Nat.leb_le. fold (contains "uvm_" n). rewrite <- contains_ok, not_true_iff_false.
  destruct (stands h n) as [t|]; [|intuition discriminate]. rewrite String.eqb_eq. intuition congruence.
Qed.
Print Assumptions C220_listed.

(** A type overridden by name first is never listed again, whatever calls follow. *)
Theorem C220_hidden : forall h n t, stands h n = Some t -> t <> n -> forall h' all, ~ In n (listed (h' ++ h) all).
Proof.
  intros h n t E N h' all I. apply C220_listed in I as (_ & I & _). assert (S' : stands (h' ++ h) n = Some t); [|congruence].
  clear I. induction h' as [|o h' IH]; [exact E|]. cbn [app]. destruct o; cbn [stands]; rewrite IH; auto.
  destruct (String.eqb_spec n n1) as [<-|]; auto. destruct (produces (h' ++ h) n) eqn:P; [now rewrite andb_false_r|].
  exfalso. destruct (inv (h' ++ h)) as [_ [_ _ _ _ _ T6] _]. now apply (T6 n t IH N).
Qed.
Print Assumptions C220_hidden.
Corollary C220_by_name : forall h a b r t, produces h a = None -> stands h b = Some t -> t <> a -> a <> b ->
  forall h' all, ~ In a (listed (h' ++ TypeN a b r :: h) all) /\ forall r', type_rows (TypeN a b r :: h) = (type_rows h ++ [(a, t)])%list /\ type_rows (TypeN a b r' :: TypeN a b r :: h) = (type_rows h ++ [(a, if r' then b else t)])%list.
Proof.
  intros h a b r t P S' N Nab h' all. assert (Q : String.eqb a b = false) by (now apply String.eqb_neq).
  assert (Eb : String.eqb b a = false) by (apply String.eqb_neq; congruence).
  split. { apply (C220_hidden _ a t); auto. cbn [stands]. now rewrite String.eqb_refl, Q, P, S'. }
  destruct (inv h) as [_ T _]. pose proof (inb_produces h _ a T) as B. rewrite P in B.
  assert (O1 : overridden (TypeN a b r :: h) = (overridden h ++ [a])%list).
  { cbn [overridden target filter produces]. rewrite String.eqb_refl, Q, P, S'. cbn. unfold add_new. now rewrite B. }
  assert (A : forall h1 x, overridden h1 = (overridden h ++ [a])%list -> produces h1 a = Some x -> (forall m, m <> a -> produces h1 m = produces h m) -> type_rows h1 = (type_rows h ++ [(a, x)])%list).
  { intros h1 x EO E1 E2. unfold type_rows. rewrite EO, flat_map_app. cbn [flat_map]. rewrite E1. f_equal. rewrite !flat_map_concat_map. f_equal. apply map_ext_in. intros m I. rewrite E2; auto.
    intros ->. apply inb_not in B. contradiction. }
  assert (P1 : produces (TypeN a b r :: h) a = Some t) by (cbn [produces]; now rewrite String.eqb_refl, Q, P, S').
  assert (P2 : forall m, m <> a -> produces (TypeN a b r :: h) m = produces h m) by (intros m Nm; cbn [produces]; destruct (String.eqb_spec m a); [congruence|reflexivity]).
  assert (S1 : stands (TypeN a b r :: h) b = Some t) by (cbn [stands]; now rewrite Eb).
  intros r'. split; [now apply A|]. assert (P3 : produces (TypeN a b r' :: TypeN a b r :: h) a = Some (if r' then b else t)).
  { cbn [produces] in *. rewrite String.eqb_refl, Q in *. cbn [andb negb] in *. now rewrite S1, P1. }
  apply A; auto.
  - cbn [overridden target filter] in *. rewrite P3. cbn [fold_left]. unfold add_new at 1. unfold inb. rewrite O1, existsb_app. cbn. now rewrite String.eqb_refl, orb_true_r.
  - intros m Nm. rewrite <- P2 by auto. cbn [produces]. destruct (String.eqb_spec m a); [congruence|reflexivity].
Qed.
Print Assumptions C220_by_name.

(** The rows of instance overrides are those of one type. *)
Theorem C220_instances : forall h, match newest h with
  | None => (forall o, inst_of h o = []) /\ inst_rows h = []
  | Some o => inst_of h o <> [] /\ forall o' p t, In (o', p, t) (inst_rows h) <-> o' = o /\ In (p, t) (inst_of h o)
  end.
Proof.
  intros h. unfold inst_rows. destruct (newest h) as [o|] eqn:E.
  - split.
    + destruct (inv h) as [_ _ [I1 I2 I3]]. rewrite I3 in E. rewrite <- map_rev in E. destruct (rev (iovr (after h))) as [|[k q] l] eqn:R; [discriminate|]. injection E as <-. cbn [fst].
      specialize (I1 k). rewrite (look_last k q) in I1; auto; [|now rewrite R]. destruct (inst_of h k); discriminate.
    + intros o' p t. rewrite in_map_iff. split; [intros ((x & y) & [= -> -> ->] & I); auto|intros (-> & I); now exists (p, t)].
  - split; [|reflexivity]. intros o. destruct (inv h) as [_ _ [I1 I2 I3]]. rewrite I3 in E. rewrite <- map_rev in E. destruct (rev (iovr (after h))) as [|e l] eqn:R; [|discriminate].
    apply (f_equal (@rev _)) in R. rewrite rev_involutive in R. cbn in R. specialize (I1 o). rewrite R in I1. cbn in I1. now destruct (inst_of h o).
Qed.
Print Assumptions C220_instances.

(** Two types with instance overrides, of which only the second is shown; a type overridden by name,
    a type overridden by type, and a type with "uvm_" inside its name. *)
Definition ex_h : list op :=
  [TypeT "pkt" "long_pkt" true; TypeN "drv" "my_drv" false; InstT "mon" "my_mon" "top.b.mon"; InstT "mon" "my_mon" "top.a.mon"; InstT "pkt" "long_pkt" "top.a.pkt";
   Reg "drv"; Reg "my_drv"; Reg "my_uvm_thing"].
Example C220_example :
  inst_rows ex_h = [("mon", "top.a.mon", "my_mon"); ("mon", "top.b.mon", "my_mon")] /\
  type_rows ex_h = [("drv", "my_drv"); ("pkt", "long_pkt")] /\
  registered ex_h = ["my_uvm_thing"; "my_drv"; "drv"; "pkt"; "long_pkt"; "mon"; "my_mon"] /\
  listed ex_h 1 = ["my_drv"; "pkt"; "long_pkt"; "mon"; "my_mon"] /\
  listed ex_h 2 = ["my_uvm_thing"; "my_drv"; "pkt"; "long_pkt"; "mon"; "my_mon"] /\
  inst_of ex_h "pkt" = [("top.a.pkt", "long_pkt")] /\
  nth 4 (print (after ex_h) 1) (Total 0) = T "  mon            top.a.mon   " /\
  nth 12 (print (after ex_h) 1) (Total 0) = T ("  pkt            long_pkt" ++ nl) /\
  produces (Reg "drv" :: Reg "my_drv" :: []) "drv" = None /\ stands (Reg "drv" :: Reg "my_drv" :: []) "my_drv" = Some "my_drv".
Proof. vm_compute. repeat split. Qed.
