(** Spec of register hooks and callbacks: which code runs, in which order, and
    what the values are. Independent of the functions of RegCbModel.v. *)
From Coq Require Import ZArith List Bool Arith Lia.
From Verif Require Import RegFieldModel RegModel RegCbModel.
Import ListNotations.
Open Scope Z_scope.

(** The methods are written as the base classes declare them and do not raise:
    coroutines, but post_read of a callback is a plain function. *)
Definition fine (async : bool) (c : code) : Prop := is_async c = async /\ forall it, eff c it <> None.
Definition fine_hooks (h : meth -> code) : Prop := forall m, fine true (h m).
Definition fine_cb (c : cb) : Prop :=
  forall m, fine (match m with PostRead => false | _ => true end) (c_code c m).
Definition pp_fine (c : cb) : Prop := exists g, c_pp c = Some g /\ forall a b, g a b = true.
Definition fine_calls (r : creg) : Prop :=
  fine_hooks (cr_hook r) /\ Forall fine_cb (cr_cbs r) /\
  Forall (fun f => fine_hooks (cf_hook f) /\ Forall fine_cb (cf_cbs f)) (cr_fields r).
Definition fine_pp (r : creg) : Prop := Forall (fun f => Forall pp_fine (cf_cbs f)) (cr_fields r).

(** What runs, without the values *)
Inductive sh := SCall (w : who) (m : meth) (el : elem) | SBusW | SBusR | SPredicted (c i : nat).
Definition shape (e : ev) : sh :=
  match e with
  | Called w m el _ => SCall w m el | BusW _ => SBusW | BusR => SBusR | Predicted c i _ _ => SPredicted c i
  end.
Definition cb_calls (m : meth) (el : elem) (l : list cb) : list sh :=
  map (fun c => SCall (WCb (c_id c)) m el) l.

(** [number i l]: the elements of [l] with their index, from [i] *)
Fixpoint number {A} (i : nat) (l : list A) : list (nat * A) :=
  match l with [] => [] | x :: l => (i, x) :: number (S i) l end.

(** Before a write. The hook of a field is told the element of the last call of a
    field callback, or the register when there was none. *)
Definition after_field (e : elem) (i : nat) (f : cfield) : elem :=
  match cf_cbs f with [] => e | _ => EFld i end.
Fixpoint pre_write_fields (e : elem) (l : list (nat * cfield)) : list sh :=
  match l with
  | [] => []
  | (i, f) :: l =>
      SCall (WFld i) PreWrite e :: cb_calls PreWrite (EFld i) (cf_cbs f)
      ++ pre_write_fields (after_field e i f) l
  end.
(** the callbacks that run for the register in a write: those of the last field *)
Definition write_cbs (r : creg) : list cb := last (map cf_cbs (cr_fields r)) (cr_cbs r).
Definition pre_write_order (r : creg) : list sh :=
  pre_write_fields EReg (number 0 (cr_fields r))
  ++ SCall WReg PreWrite EReg :: cb_calls PreWrite EReg (write_cbs r).
Definition predicted_order (sel : cfield -> bool) (r : creg) : list sh :=
  flat_map (fun x : nat * cfield =>
      if sel (snd x) then map (fun c => SPredicted (c_id c) (fst x)) (cf_cbs (snd x)) else [])
    (number 0 (cr_fields r)).
Definition post_write_order (r : creg) : list sh :=
  cb_calls PostWrite EReg (write_cbs r) ++ SCall WReg PostWrite EReg ::
  map (fun x => SCall (WFld (fst x)) PostWrite (EFld (fst x))) (number 0 (cr_fields r)).

Definition pre_read_order (r : creg) : list sh :=
  flat_map (fun x : nat * cfield =>
      SCall (WFld (fst x)) PreRead (EFld (fst x)) :: cb_calls PreRead (EFld (fst x)) (cf_cbs (snd x)))
    (number 0 (cr_fields r))
  ++ [SCall WReg PreRead EReg].
Definition post_read_order (r : creg) : list sh :=
  cb_calls PostRead EReg (cr_cbs r) ++ SCall WReg PostRead EReg ::
  flat_map (fun x : nat * cfield =>
      cb_calls PostRead (EFld (fst x)) (cf_cbs (snd x)) ++ [SCall (WFld (fst x)) PostRead (EFld (fst x))])
    (number 0 (cr_fields r)).

(** Values: pieces of code one after the other, each told an element. *)
Fixpoint through (l : list (elem * code)) (v : Z) (s : status) : Z * status :=
  match l with
  | [] => (v, s)
  | (e, c) :: l =>
      match eff c (Item v s e) with Some (v', s') => through l v' s' | None => (v, s) end
  end.
Definition cb_codes (m : meth) (el : elem) (l : list cb) : list (elem * code) :=
  map (fun c => (el, c_code c m)) l.
(** the part of [v] that belongs to a field *)
Definition part (v : Z) (f : field) : Z := (v / 2 ^ lsb f) mod 2 ^ size f.
(** What the pre_write code of each field makes of its part of [v], and the status *)
Fixpoint pre_outcomes (e : elem) (l : list (nat * cfield)) (v : Z) (s : status) : list Z * status :=
  match l with
  | [] => ([], s)
  | (i, f) :: l =>
      let '(o, s1) := through ((e, cf_hook f PreWrite) :: cb_codes PreWrite (EFld i) (cf_cbs f)) (part v (cf f)) s in
      let '(os, s2) := pre_outcomes (after_field e i f) l v s1 in
      (o :: os, s2)
  end.
Definition in_field (k : Z) (f : field) : Prop := lsb f <= k < lsb f + size f.
(** [x] consists of the outcomes at the places of the fields, and of the bits of
    [v] elsewhere *)
Definition assembled (v : Z) (fs : list cfield) (os : list Z) (x : Z) : Prop :=
  (forall j f o, nth_error fs j = Some f -> nth_error os j = Some o ->
      forall k, 0 <= k < size (cf f) -> Z.testbit x (lsb (cf f) + k) = Z.testbit o k) /\
  (forall k, 0 <= k -> (forall f, In f fs -> ~ in_field k (cf f)) -> Z.testbit x k = Z.testbit v k).
Definition fits (f : cfield) (o : Z) : Prop := 0 <= o < 2 ^ size (cf f).
Definition placed (r : creg) : Prop :=
  0 <= cr_bits r /\
  Forall (fun f => 0 < size (cf f) /\ 0 <= lsb (cf f)) (cr_fields r) /\
  (forall i j f g k, nth_error (cr_fields r) i = Some f -> nth_error (cr_fields r) j = Some g ->
     in_field k (cf f) -> in_field k (cf g) -> i = j).
Definition bus_values (t : list ev) : list Z := flat_map (fun e => match e with BusW v => [v] | _ => [] end) t.
Definition bus_reads (t : list ev) : list unit := flat_map (fun e => match e with BusR => [tt] | _ => [] end) t.

(** The status after the code that follows a read; each field starts with its part
    of the value read. *)
Definition post_codes_reg (r : creg) : list (elem * code) :=
  cb_codes PostRead EReg (cr_cbs r) ++ [(EReg, cr_hook r PostRead)].
Fixpoint post_read_status (l : list (nat * cfield)) (v : Z) (s : status) : status :=
  match l with
  | [] => s
  | (i, f) :: l =>
      post_read_status l v
        (snd (through (cb_codes PostRead (EFld i) (cf_cbs f) ++ [(EFld i, cf_hook f PostRead)]) (part v (cf f)) s))
  end.
Definition post_write_status_fields := fun (l : list (nat * cfield)) v s =>
  fold_left (fun s (x : nat * cfield) => snd (through [(EFld (fst x), cf_hook (snd x) PostWrite)] (part v (cf (snd x))) s)) l s.

(** Changing the modes of all callbacks *)
Definition mode (b : bool) (c : cb) : cb := Cb (c_id c) b (c_code c) (c_pp c).
Definition modes (b : bool) (r : creg) : creg :=
  CReg (cr_bits r) (cr_hook r) (map (mode b) (cr_cbs r))
       (map (fun f => CField (cf f) (cf_hook f) (map (mode b) (cf_cbs f))) (cr_fields r)).

(** The register seen as in RegModel.v *)
Definition plain (r : creg) : reg := Reg (cr_bits r) 0 true false (map cf (cr_fields r)).
Definition in_range (r : creg) : Prop :=
  Forall (fun f => 0 < size (cf f) /\ 0 <= mirrored (cf f) < 2 ^ size (cf f)) (cr_fields r).
(** unreadable through the map: a read predicts nothing for it *)
Definition readable (m : via) (f : cfield) : bool :=
  match get_access (cf f) m with WO | WOC | WOS | WO1 | NOACCESS => false | _ => true end.
(** The code that runs before a read *)
Definition pre_read_codes (r : creg) : list (elem * code) :=
  flat_map (fun x : nat * cfield =>
      (EFld (fst x), cf_hook (snd x) PreRead) :: cb_codes PreRead (EFld (fst x)) (cf_cbs (snd x)))
    (number 0 (cr_fields r)) ++ [(EReg, cr_hook r PreRead)].
(** What the callbacks of a field are told of a prediction *)
Definition told_all (before after : list cfield) (sel : cfield -> bool) : list ev :=
  flat_map (fun x : nat * (cfield * cfield) =>
      let '(i, (f, g)) := x in
      if sel f then map (fun c => Predicted (c_id c) i (mirrored (cf f)) (mirrored (cf g))) (cf_cbs f) else [])
    (number 0 (combine before after)).
(** Code that leaves the operation as it is *)
Definition does_nothing (c : code) : Prop := forall it, eff c it = Some (i_val it, i_st it).
