(** Model of the hooks and callbacks of a register access and of a prediction:
    src/uvm/reg/uvm_reg.py write 852-915, read 918-965, XreadX 1207-1249, do_write
    1389-1552, do_read 1579-1757, do_predict 1760-1779, the field part of
    do_predict, src/uvm/reg/uvm_reg_field.py:1253-1317, the default callback
    classes of src/uvm/reg/uvm_reg_cbs.py and the iteration over the callbacks of
    an object, src/uvm/base/uvm_callback.py:950-985, 1027-1065, 1199-1264.

    Modelled: accesses through the front door with the built-in front door of the
    map, in a map which automatically predicts or not. The bus is a parameter
    (BusModel.v gives it). A hook or callback is any code that reads the value,
    the status and the element of the operation, changes the value and the status
    or raises; other effects of it are not modelled. The check of the value read
    (do_check) only reports and is left out, as are coverage and the message at
    the end. The queue of the callbacks of an object is given (CallbackModel.v). *)
From Coq Require Import ZArith List Bool Arith Lia.
From Verif Require Import RegFieldModel RegModel.
Import ListNotations.
Open Scope Z_scope.

Inductive status := IS_OK | HAS_X | NOT_OK.
Inductive elem := EReg | EFld (i : nat).
(** UVMRegItem: value[0], status, element *)
Record item := Item { i_val : Z; i_st : status; i_el : elem }.
Inductive meth := PreWrite | PostWrite | PreRead | PostRead.
(** One method: whether it is a coroutine, and what it does ([None]: raises). *)
Record code := Code { is_async : bool; eff : item -> option (Z * status) }.
Inductive who := WReg | WFld (i : nat) | WCb (c : nat).
Inductive ev :=
| Called (w : who) (m : meth) (el : elem) (v : Z)      (* the code runs *)
| BusW (v : Z) | BusR
| Predicted (c i : nat) (prev v : Z).                  (* post_predict of c runs *)
(** [Blocked] does not occur here: see the lock. *)
Inductive exc := TypeErr | AttrErr | UserExc | BusExc.
Inductive outc (A : Type) := Ok (a : A) | Exc (e : exc).
Arguments Ok {A} a. Arguments Exc {A} e.

(** A callback object; [c_enabled] is what callback_mode() sets; [c_pp] its
    post_predict if it has one, given the previous and the new value, with
    [false] when it raises. *)
Record cb := Cb { c_id : nat; c_enabled : bool; c_code : meth -> code; c_pp : option (Z -> Z -> bool) }.
Record cfield := CField { cf : field; cf_hook : meth -> code; cf_cbs : list cb }.
Record creg := CReg { cr_bits : Z; cr_hook : meth -> code; cr_cbs : list cb; cr_fields : list cfield }.

Definition set_val (it : item) (v : Z) : item := Item v (i_st it) (i_el it).
Definition set_st (it : item) (s : status) : item := Item (i_val it) s (i_el it).
Definition set_el (it : item) (e : elem) : item := Item (i_val it) (i_st it) e.

Definition andthen {A B : Type} (x : list ev * outc A) (k : A -> list ev * outc B) : list ev * outc B :=
  match x with
  | (t, Ok a) => let '(t2, o) := k a in (t ++ t2, o)
  | (t, Exc e) => (t, Exc e)
  end.

(** Calling a method with ([aw]) or without await. A coroutine that is not awaited
    does not run; awaiting what a plain function returned raises. *)
Definition call (aw : bool) (w : who) (m : meth) (c : code) (it : item) : list ev * outc item :=
  if is_async c && negb aw then ([], Ok it)
  else
    ([Called w m (i_el it) (i_val it)],
     match eff c it with
     | None => Exc UserExc
     | Some (v, s) => if is_async c || negb aw then Ok (Item v s (i_el it)) else Exc TypeErr
     end).

(** [cb = cbs.first(); while cb is not None: ...; cb = cbs.next()]. The iterator is
    made without a callback class, so first() and next() return the entries of
    the queue one by one (uvm_callback.py:984, 1064) without looking at their
    mode. [set] is the element stored before each call (1433-1434). *)
Fixpoint call_cbs (aw : bool) (m : meth) (set : option elem) (l : list cb) (it : item)
  : list ev * outc item :=
  match l with
  | [] => ([], Ok it)
  | c :: l =>
      let it := match set with Some e => set_el it e | None => it end in
      andthen (call aw (WCb (c_id c)) m (c_code c m) it) (call_cbs aw m set l)
  end.

Definition fmask (f : field) : Z := Z.shiftl (Z.shiftl 1 (size f) - 1) (lsb f).

(** uvm_reg.py:1424-1437; [value] is the local variable *)
Fixpoint fields_pre_write (i : nat) (fs : list cfield) (value : Z) (it : item)
  : list ev * outc (Z * item) :=
  match fs with
  | [] => ([], Ok (value, it))
  | f :: fs =>
      let it := set_val it (Z.shiftr (Z.land value (fmask (cf f))) (lsb (cf f))) in
      andthen (call true (WFld i) PreWrite (cf_hook f PreWrite) it) (fun it =>
      andthen (call_cbs true PreWrite (Some (EFld i)) (cf_cbs f) it) (fun it =>
        let value := Z.lor (Z.land value (Z.lnot (fmask (cf f)))) (Z.shiftl (i_val it) (lsb (cf f))) in
        fields_pre_write (S i) fs value it))
  end.

(** uvm_reg_field.py:1280-1284, 1299-1303: [cb.post_predict(...)]; the value
    returned is ignored *)
Fixpoint post_predict (i : nat) (l : list cb) (prev v : Z) : list ev * outc unit :=
  match l with
  | [] => ([], Ok tt)
  | c :: l =>
      match c_pp c with
      | None => ([], Exc AttrErr)
      | Some g =>
          andthen ([Predicted (c_id c) i prev v], if g prev v then Ok tt else Exc UserExc)
                  (fun _ => post_predict i l prev v)
      end
  end.

(** uvm_reg_field.py:1273-1317 for a write or a read seen at the front door (the
    direct prediction calls no callback). The field as it is when the callbacks
    raise: the value is not stored, but [m_written] is (1278). *)
Definition has_pp (k : pkind) (f : field) (m : via) : bool :=
  match k with
  | PWrite => true
  | PRead => negb (is_in (get_access f m) [WO; WOC; WOS; WO1; NOACCESS])   (* 1295-1296 *)
  | PDirect => false
  end.
Definition raw_predicted (k : pkind) (f : field) (v : Z) (m : via) : Z :=
  let fv := Z.land v (get_mask f) in
  match k with
  | PWrite => XpredictX f (mirrored f) fv m
  | PRead =>
      let acc := get_access f m in
      if is_in acc [RC; WRC; WSRC; W1SRC; W0SRC] then 0
      else if is_in acc [RS; WRS; WCRS; W1CRS; W0CRS] then get_mask f
      else fv
  | PDirect => fv
  end.
Definition field_predict (i : nat) (f : cfield) (v : Z) (k : pkind) (m : via)
  : cfield * (list ev * outc unit) :=
  let g := cf f in
  let put h := CField h (cf_hook f) (cf_cbs f) in
  if has_pp k g m then
    let nv := raw_predicted k g v m in
    let g1 := match k with PWrite => with_written g true | _ => g end in
    match post_predict i (cf_cbs f) (mirrored g) nv with
    | (t, Ok _) => (put (with_both g1 (Z.land nv (get_mask g))), (t, Ok tt))
    | (t, Exc e) => (put g1, (t, Exc e))
    end
  else
    match k with
    | PDirect => (put (with_both g (Z.land v (get_mask g))), ([], Ok tt))
    | _ => (f, ([], Ok tt))
    end.

(** uvm_reg.py:1774-1779, all bytes enabled, the register not busy (it is reset to
    not busy before the prediction, 1507, 1709) *)
Fixpoint reg_do_predict (i : nat) (fs : list cfield) (v : Z) (k : pkind) (m : via)
  : list cfield * (list ev * outc unit) :=
  match fs with
  | [] => ([], ([], Ok tt))
  | f :: fs =>
      match field_predict i f (slice v (cf f)) k m with
      | (f', (t, Exc e)) => (f' :: fs, (t, Exc e))
      | (f', (t, Ok _)) =>
          let '(fs', (t2, o)) := reg_do_predict (S i) fs v k m in (f' :: fs', (t ++ t2, o))
      end
  end.

(** uvm_reg.py:1529-1540 ([PostWrite]: callbacks not awaited) and 1735-1746 *)
Fixpoint fields_post (m : meth) (i : nat) (fs : list cfield) (value : Z) (it : item)
  : list ev * outc item :=
  match fs with
  | [] => ([], Ok it)
  | f :: fs =>
      let it := Item (slice value (cf f)) (i_st it) (EFld i) in
      andthen (call_cbs false m None (cf_cbs f) it) (fun it =>
      andthen (call true (WFld i) m (cf_hook f m) it) (fun it =>
        fields_post m (S i) fs value it))
  end.

(** [cbs] after the loop of 1424: the iterator of the last field, and only without
    fields that of the register (1398) *)
Definition last_cbs (r : creg) : list cb :=
  match rev (cr_fields r) with [] => cr_cbs r | f :: _ => cf_cbs f end.

Definition with_cfields (r : creg) (fs : list cfield) : creg := CReg (cr_bits r) (cr_hook r) (cr_cbs r) fs.
Definition map_field (h : field -> field) (f : cfield) : cfield := CField (h (cf f)) (cf_hook f) (cf_cbs f).

(** What the caller sees: the status appended, or the exception; how often the lock
    of the register was released (0 when an exception passes 912). *)
Record wres := WRes { w_reg : creg; w_tr : list ev; w_out : outc status; w_releases : nat }.

(** 852-915 and 1389-1552 *)
Section Bus.
Context (m : via) (auto : bool).
(** the status the bus gives for a value written, [None]: the adapter, driver ...
    raises; the value and status it gives for a read *)
Context (bus_w : Z -> option status) (bus_r : option (Z * status)).

Definition is_ok (s : status) : bool := match s with IS_OK => true | _ => false end.

Definition write (r0 : creg) (v : Z) : wres :=
  let r := with_cfields r0 (map (fun f => map_field (fun g => f_set g (slice v g)) f) (cr_fields r0)) in   (* 898 *)
  let value := Z.land v (Z.shiftl 1 (cr_bits r) - 1) in                                    (* 1416-1418 *)
  let it := Item value IS_OK EReg in
  let pre :=
    andthen (fields_pre_write 0 (cr_fields r) value it) (fun x =>
      let '(value, it) := x in
      let it := Item value (i_st it) EReg in                                               (* 1439-1441 *)
      andthen (call true WReg PreWrite (cr_hook r PreWrite) it) (fun it =>
      call_cbs true PreWrite None (last_cbs r) it)) in
  match pre with
  | (t, Exc e) => WRes r t (Exc e) 0
  | (t, Ok it) =>
      if negb (is_ok (i_st it)) then WRes r t (Ok (i_st it)) 2                             (* 1450-1453, 914 *)
      else
        match bus_w (i_val it) with                                                        (* 1505 *)
        | None => WRes r (t ++ [BusW (i_val it)]) (Exc BusExc) 0
        | Some st =>
            let it := set_st it st in
            let '(fs, (tp, op)) :=
              if auto then reg_do_predict 0 (cr_fields r) (i_val it) PWrite m              (* 1510-1518 *)
              else (cr_fields r, ([], Ok tt)) in
            let r := with_cfields r fs in
            let t := t ++ [BusW (i_val it)] ++ tp in
            match op with
            | Exc e => WRes r t (Exc e) 0
            | Ok _ =>
                let post :=
                  andthen (call_cbs true PostWrite None (last_cbs r) it) (fun it' =>       (* 1523-1526 *)
                  andthen (call true WReg PostWrite (cr_hook r PostWrite) it') (fun it' =>
                  fields_post PostWrite 0 (cr_fields r) (i_val it) it')) in
                match post with
                | (t2, Exc e) => WRes r (t ++ t2) (Exc e) 0
                | (t2, Ok it') => WRes r (t ++ t2) (Ok (i_st it')) 1
                end
            end
        end
  end.

(** 1603-1612 *)
Fixpoint fields_pre_read (i : nat) (fs : list cfield) (it : item) : list ev * outc item :=
  match fs with
  | [] => ([], Ok it)
  | f :: fs =>
      andthen (call true (WFld i) PreRead (cf_hook f PreRead) (set_el it (EFld i))) (fun it =>
      andthen (call_cbs true PreRead None (cf_cbs f) it) (fun it =>
        fields_pre_read (S i) fs it))
  end.

Record rres := RRes { r_reg : creg; r_tr : list ev; r_out : outc (Z * status); r_releases : nat }.

(** 918-965, 1207-1249, 1579-1757 *)
Definition read (r : creg) : rres :=
  let it := Item 0 IS_OK EReg in
  let pre :=
    andthen (fields_pre_read 0 (cr_fields r) it) (fun it =>
    andthen (call true WReg PreRead (cr_hook r PreRead) (set_el it EReg)) (fun it =>
      call_cbs false PreRead None (cr_cbs r) it)) in                                       (* 1621-1624: not awaited *)
  match pre with
  | (t, Exc e) => RRes r t (Exc e) 0
  | (t, Ok it) =>
      if negb (is_ok (i_st it)) then RRes r t (Ok (i_val it, i_st it)) 1                   (* 1626-1628 *)
      else
        match bus_r with
        | None => RRes r (t ++ [BusR]) (Exc BusExc) 0
        | Some (v, st) =>
            let it := Item v st EReg in
            let '(fs, (tp, op)) :=
              if auto then reg_do_predict 0 (cr_fields r) v PRead m                        (* 1711-1723 *)
              else (cr_fields r, ([], Ok tt)) in
            let r := with_cfields r fs in
            let t := t ++ [BusR] ++ tp in
            match op with
            | Exc e => RRes r t (Exc e) 0
            | Ok _ =>
                let post :=
                  andthen (call_cbs false PostRead None (cr_cbs r) it) (fun it' =>         (* 1728-1732 *)
                  andthen (call true WReg PostRead (cr_hook r PostRead) it') (fun it' =>
                  fields_post PostRead 0 (cr_fields r) v it')) in
                match post with
                | (t2, Exc e) => RRes r (t ++ t2) (Exc e) 0
                | (t2, Ok it') => RRes r (t ++ t2) (Ok (v, i_st it')) 1                    (* 1748 *)
                end
            end
        end
  end.
End Bus.

(** The methods a callback class inherits from UVMRegCbs (uvm_reg_cbs.py:53-237):
    coroutines that do nothing, but post_read is a plain function; there is no
    post_predict (240-255 are comments). UVMRegReadOnlyCbs and UVMRegWriteOnlyCbs
    (403-563) override none of them: their pre_write and pre_read are comments. *)
Definition idle : item -> option (Z * status) := fun it => Some (i_val it, i_st it).
Definition default_cb (c : nat) : cb :=
  Cb c true (fun m => Code (match m with PostRead => false | _ => true end) idle) None.
(** UVMRegReadOnlyCbs.add / UVMRegWriteOnlyCbs.add (447-453, 532-538): the same
    object for the register and for each field; an object already in the queue is
    not added again (uvm_callback.py:772-780, callbacks are compared by identity,
    here by number) *)
Definition add_cb (l : list cb) (c : cb) : list cb :=
  if existsb (fun d => Nat.eqb (c_id d) (c_id c)) l then l else l ++ [c].
Definition add_builtin (c : nat) (r : creg) : creg :=
  CReg (cr_bits r) (cr_hook r) (add_cb (cr_cbs r) (default_cb c))
       (map (fun f => CField (cf f) (cf_hook f) (add_cb (cf_cbs f) (default_cb c))) (cr_fields r)).
