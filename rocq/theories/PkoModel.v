(** Model of packing and unpacking objects declared with field macros:
    src/uvm/base/uvm_object.py 694-735, 803-808, 899-918, 1040-1083, src/uvm/base/uvm_packer.py 336-358, 591-619
    and the pack/unpack parts of src/uvm/macros/uvm_object_defines.py 269-296. The calls for one
    value are those of PackerModel.v.

    Objects are numbers in a heap, attributes are numbers, strings are given by their encoded
    bytes. [VBad] stands for None, a value of another type and a missing attribute: all raise.
    The packer's use_metadata is 0; the user hooks do_pack and do_unpack do nothing; names and
    the scope stack of the packer are left out. *)
From Coq Require Import ZArith List Bool Arith.
From Verif Require Import Prelude PackerModel.
Import ListNotations.
Local Open Scope nat_scope.

Inductive val := VInt (z : Z) | VStr (s : list Z) | VObj (o : nat) | VBad.
(** The fields walked for an instance, in order (uvm_object_defines.py 131-136), with whether they are packed
    (272, 285: not UVM_NOPACK). *)
Record object := Object { flds : list (nat * bool); att : nat -> val }.
Definition heap := nat -> object.
Definition set (h : heap) (o f : nat) (v : val) : heap :=
  upd h o (Object (flds (h o)) (upd (att (h o)) f v)).

(** How a call ends; [cyc] are the keys of the shared table cycle_check (uvm_misc.py 263), which
    stays as it is when an exception leaves the call. *)
Inductive out (A : Type) := Done (a : A) (cyc : list nat) | Raised (cyc : list nat) | Forever | NoFuel.
Arguments Done {A}. Arguments Raised {A}. Arguments Forever {A}. Arguments NoFuel {A}.

Definition mem (o : nat) (l : list nat) : bool := existsb (Nat.eqb o) l.
Definition del (o : nat) (l : list nat) : list nat := filter (fun x => negb (Nat.eqb o x)) l.
(** sv.py 143-146: every int has 32 bits. *)
Definition int_bits : Z := 32%Z.

Section Pack.
Variable reference : bool.       (* packer.policy is UVM_REFERENCE *)

(** uvm_object_defines.py 270-281. *)
Fixpoint pack_each (rec : pk -> list nat -> nat -> out pk) (h : heap) (o : nat) (fs : list (nat * bool)) (p : pk)
    (cyc : list nat) : out pk :=
  match fs with
  | [] => Done p cyc
  | (f, false) :: fs => pack_each rec h o fs p cyc
  | (f, true) :: fs =>
      match att (h o) f with
      | VInt z =>
          match pack_field_int p z int_bits with
          | Ok p1 => pack_each rec h o fs p1 cyc | Raise => Raised cyc | Diverge => Forever
          end
      | VObj c =>
          match rec p cyc c with Done p1 cyc1 => pack_each rec h o fs p1 cyc1 | e => e end
      | VStr s =>
          match pack_string p s with
          | Ok p1 => pack_each rec h o fs p1 cyc | Raise => Raised cyc | Diverge => Forever
          end
      | VBad => Raised cyc
      end
  end.
(** uvm_packer.py 336-358; an object in cycle_check is left out with a warning. *)
Fixpoint pack_object (fuel : nat) (h : heap) (p : pk) (cyc : list nat) (o : nat) : out pk :=
  match fuel with
  | O => NoFuel
  | S fuel =>
      if mem o cyc then Done p cyc
      else if reference then Done p (del o (o :: cyc))
      else match pack_each (pack_object fuel h) h o (flds (h o)) p (o :: cyc) with
           | Done p1 cyc1 => Done p1 (del o cyc1)
           | e => e
           end
  end.
(** uvm_object.py 1040-1055: the object itself is not put into cycle_check. *)
Definition m_pack (fuel : nat) (h : heap) (big : bool) (cyc : list nat) (o : nat) : out pk :=
  match pack_each (pack_object fuel h) h o (flds (h o)) (Pk big 0 0 0) cyc with
  | Done p cyc => Done (set_packed_size p) cyc
  | e => e
  end.
(** 694-696: the size and the bits. *)
Definition pack (fuel : nat) (h : heap) (big : bool) (cyc : list nat) (o : nat) : out (Z * Z) :=
  match m_pack fuel h big cyc o with
  | Done p cyc => Done (psize p, m_bits p) cyc | Raised cyc => Raised cyc | Forever => Forever | NoFuel => NoFuel
  end.
End Pack.

Section Unpack.
Variable decodes : list Z -> bool.   (* bytes.decode() accepts the bytes *)

(** uvm_object_defines.py 283-296. *)
Fixpoint unpack_each (rec : heap -> pk -> list nat -> nat -> out (heap * pk)) (h : heap) (o : nat)
    (fs : list (nat * bool)) (p : pk) (cyc : list nat) : out (heap * pk) :=
  match fs with
  | [] => Done (h, p) cyc
  | (f, false) :: fs => unpack_each rec h o fs p cyc
  | (f, true) :: fs =>
      match att (h o) f with
      | VInt _ =>
          match unpack_field_int p int_bits with
          | Ok (p1, v) => unpack_each rec (set h o f (VInt v)) o fs p1 cyc | Raise => Raised cyc | Diverge => Forever
          end
      | VObj c =>
          match rec h p cyc c with
          | Done (h1, p1) cyc1 => unpack_each rec (set h1 o f (VObj c)) o fs p1 cyc1
          | e => e
          end
      | VStr _ =>
          match unpack_string p (-1) with
          | Some (p1, s) => if decodes s then unpack_each rec (set h o f (VStr s)) o fs p1 cyc else Raised cyc
          | None => Forever
          end
      | VBad => Raised cyc
      end
  end.
(** uvm_packer.py 591-619 *)
Fixpoint unpack_object (fuel : nat) (h : heap) (p : pk) (cyc : list nat) (o : nat) : out (heap * pk) :=
  match fuel with
  | O => NoFuel
  | S fuel =>
      if mem o cyc then Done (h, p) cyc
      else match unpack_each (unpack_object fuel) h o (flds (h o)) p (o :: cyc) with
           | Done a cyc1 => Done a (del o cyc1)
           | e => e
           end
  end.
(** uvm_object.py 803-808, 1059-1083; returns the heap and the number of bits consumed. The
    comparison of sizes in 1080 is of the same number twice. *)
Definition unpack (fuel : nat) (h : heap) (big : bool) (cyc : list nat) (o : nat) (bits : Z) : out (heap * Z) :=
  match unpack_each (unpack_object fuel) h o (flds (h o)) (put_bits (Pk big 0 0 0) bits) cyc with
  | Done (h1, p) cyc => Done (h1, psize (set_packed_size p)) cyc
  | Raised cyc => Raised cyc | Forever => Forever | NoFuel => NoFuel
  end.
End Unpack.

(** ** Histories *)
(** Calls of a test bench that share cycle_check; set_int_local and the like (899-1030) empty it. *)
Inductive call := CPack (o : nat) | CUnpack (o : nat) (bits : Z) | CLocal | CAssign (o f : nat) (v : val).
Record world := World { hp : heap; cyc : list nat }.
Inductive reply := RBits (size bits : Z) | RUnpacked (used : Z) | RDone | RExn | RHang.
Definition run (decodes : list Z -> bool) (reference big : bool) (fuel : nat) (w : world) (c : call) : world * reply :=
  match c with
  | CPack o =>
      match pack reference fuel (hp w) big (cyc w) o with
      | Done (s, b) cy => (World (hp w) cy, RBits s b)
      | Raised cy => (World (hp w) cy, RExn)
      | _ => (w, RHang)
      end
  | CUnpack o bits =>
      match unpack decodes fuel (hp w) big (cyc w) o bits with
      | Done (h, n) cy => (World h cy, RUnpacked n)
      | Raised cy => (World (hp w) cy, RExn)
      | _ => (w, RHang)
      end
  | CLocal => (World (hp w) [], RDone)
  | CAssign o f v => (World (set (hp w) o f v) (cyc w), RDone)
  end.
