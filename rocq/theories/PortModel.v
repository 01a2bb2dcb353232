(** Model of src/uvm/base/uvm_port_base.py: UVMPortBase.connect, resolve_bindings, get_if,
    and of the broadcasts of src/uvm/tlm1/uvm_analysis_port.py.

    Ports, exports and imps are numbered; [nm] gives their full names (as numbers). Python
    dicts are association lists in insertion order. Simplified: the relationship check of
    connect (m_check_relationship, 557-618) only warns and is left out; a null provider
    (383-386) is left out. *)
From Coq Require Import ZArith List Bool Arith.
Import ListNotations.

Inductive kind := KPort | KExport | KImp.
Section Port.
Context (kd : nat -> kind) (nm : nat -> nat) (mask : nat -> Z) (min_size : nat -> Z) (max_size : nat -> Z).

Definition dict := list (nat * nat).
(** d[k] = v *)
Fixpoint dset (d : dict) (k v : nat) : dict :=
  match d with
  | [] => [(k, v)]
  | (k', v') :: t => if Nat.eqb k k' then (k', v) :: t else (k', v') :: dset t k v
  end.
Definition dhas (d : dict) (k : nat) : bool := existsb (fun e => Nat.eqb k (fst e)) d.

Inductive cerr := TooFew | TooMany.
(** 204-216 __init__; [reported]: the errors of resolve_bindings. *)
Record ports := Ports {
  provided_by : nat -> dict;
  imp_list : nat -> dict;
  resolved : nat -> bool;
  m_if : nat -> option nat;
  reported : list (nat * cerr)
}.
Definition ports0 : ports := Ports (fun _ => []) (fun _ => []) (fun _ => false) (fun _ => None) [].

Definition updf {B} (f : nat -> B) (i : nat) (v : B) : nat -> B := fun j => if Nat.eqb i j then v else f j.

Definition is_imp (p : nat) : bool := match kd p with KImp => true | _ => false end.
Inductive connerr := CSelf | CMask | CImp | CExportPort.
(** 383-416: the error reported, if any. *)
Definition connect_error (p provider : nat) : option connerr :=
  if Nat.eqb provider p then Some CSelf
  else if negb (Z.land (mask provider) (mask p) =? mask p)%Z then Some CMask
  else match kd p, kd provider with
       | KImp, _ => Some CImp
       | KExport, KPort => Some CExportPort
       | _, _ => None
       end.
(** 328-421 connect (m_provided_to is not used for binding) *)
Definition connect (s : ports) (p provider : nat) : ports :=
  match connect_error p provider with
  | Some _ => s
  | None => Ports (updf (provided_by s) p (dset (provided_by s p) (nm provider) provider)) (imp_list s) (resolved s) (m_if s) (reported s)
  end.

(** 308-309 *)
Definition psize (s : ports) (p : nat) : Z := Z.of_nat (length (imp_list s p)).
(** 677-690 get_if *)
Definition get_if (s : ports) (p : nat) (index : Z) : option nat :=
  if (psize s p =? 0)%Z then None
  else if (index <? 0)%Z || (psize s p <=? index)%Z then None
  else option_map snd (nth_error (imp_list s p) (Z.to_nat index)).
Definition set_imps (s : ports) (p : nat) (d : dict) : ports :=
  Ports (provided_by s) (updf (imp_list s) p d) (resolved s) (m_if s) (reported s).
(** 620-632 m_add_list. The loop counts up to provider.size(); None: AttributeError. *)
Fixpoint add_list (s : ports) (p provider : nat) (is_ : list nat) : option ports :=
  match is_ with
  | [] => Some s
  | i :: t =>
      match get_if s provider (Z.of_nat i) with
      | None => None
      | Some imp =>
          add_list (if dhas (imp_list s p) (nm imp) then s else set_imps s p (dset (imp_list s p) (nm imp) imp)) p provider t
      end
  end.
(** 656-669 *)
Definition finish (s : ports) (p : nat) : ports :=
  let sz := psize s p in
  Ports (provided_by s) (imp_list s) (updf (resolved s) p true)
    (if (0 <? sz)%Z then updf (m_if s) p (get_if s p 0) else m_if s)
    (reported s ++ (if (sz <? min_size p)%Z then [(p, TooFew)] else [])
                ++ (if negb (max_size p =? -1)%Z && (max_size p <? sz)%Z then [(p, TooMany)] else [])).
(** 644-669 resolve_bindings; None: the recursion does not end (RecursionError). *)
Fixpoint resolve (fuel : nat) (s : ports) (p : nat) : option ports :=
  match fuel with
  | O => None
  | S k =>
      if resolved s p then Some s
      else
        let body :=
          if is_imp p then Some (set_imps s p (dset (imp_list s p) (nm p) p))
          else (fix go (l : list (nat * nat)) (s : ports) : option ports :=
                  match l with
                  | [] => Some s
                  | (_, port) :: t =>
                      match resolve k s port with
                      | None => None
                      | Some s1 =>
                          match add_list s1 p port (seq 0 (length (imp_list s1 port))) with
                          | None => None
                          | Some s2 => go t s2
                          end
                      end
                  end) (provided_by s p) s in
        option_map (fun s => finish s p) body
  end.
(** The root resolves every port component, in the order of the component tree. *)
Fixpoint resolve_all (fuel : nat) (s : ports) (l : list nat) : option ports :=
  match l with
  | [] => Some s
  | p :: t => match resolve fuel s p with None => None | Some s1 => resolve_all fuel s1 t end
  end.

(** uvm_analysis_port.py 63-76 and 135-150 write, the imps whose write is called, in
    order; None: the fatal error. *)
Definition broadcast (s : ports) (p : nat) : list (option nat) :=
  map (fun i => get_if s p (Z.of_nat i)) (seq 0 (length (imp_list s p))).
Definition connect_all (s : ports) (log : list (nat * nat)) : ports := fold_left (fun s c => connect s (fst c) (snd c)) log s.
End Port.
