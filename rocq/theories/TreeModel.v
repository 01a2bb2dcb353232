(** Model of the component hierarchy and its names: src/uvm/base/uvm_component.py, the
    constructor 158-280, get_full_name() 301-313, children 315-390, set_name() 392-405,
    lookup() 407-442, get_depth() 445-460, m_set_full_name() 2139-2157, m_extract_name()
    2180-2203, m_add_child() 2552-2569, and src/uvm/base/uvm_root.py find() 398-422,
    find_all() 424-439, m_find_all_recurse() 467-489.

    Components are numbered in the order of construction, 0 is uvm_top. m_children (a
    dictionary in order of insertion) and m_children_ordered get the same entries at the same
    time (2560-2561) and are one list here. Not modelled: a user's component named "__top__"
    without parent (the constructor takes it for uvm_top); report settings, configuration,
    domains and recording of the constructor. *)
From Coq Require Import ZArith List Bool Arith Ascii.
From Verif Require Import Prelude SvModel.
Import ListNotations.
Local Open Scope nat_scope.

Definition dot : ascii := "."%char.
Fixpoint str_eqb (a b : str) : bool :=
  match a, b with
  | [], [] => true
  | x :: a, y :: b => Ascii.eqb x y && str_eqb a b
  | _, _ => false
  end.

Record comp := Comp {
  leaf : str;                    (* get_name() *)
  full : str;                    (* m_name *)
  parent : option nat;           (* m_parent *)
  kids : list (str * nat);       (* m_children, m_children_ordered *)
  ptr : Z                        (* child_ptr *)
}.
Record tree := Tree {
  comps : list comp;
  built : bool;                  (* the build phase has ended *)
  insts : nat                    (* UVMObject.m_inst_count *)
}.
Definition tree0 (n : nat) : tree := Tree [Comp [] [] None [] (-1)] false n.

Fixpoint get_kid (l : list (str * nat)) (n : str) : option nat :=
  match l with [] => None | (m, c) :: l => if str_eqb m n then Some c else get_kid l n end.
Fixpoint set_at {A} (l : list A) (i : nat) (x : A) : list A :=
  match l, i with
  | [], _ => []
  | _ :: l, O => x :: l
  | y :: l, S i => y :: set_at l i x
  end.

Inductive out :=
| ONew (c : nat) | OFatal | OError | OWarn
| OComp (c : option nat) | OComps (l : list nat) | OStr (s : str) | ONum (n : nat) | OBool (b : bool)
| ORaise.

(** 301-313 *)
Definition get_full_name (c : comp) : str := match full c with [] => leaf c | s => s end.
(** 445-460 *)
Definition get_depth (c : comp) : nat :=
  match full c with [] => 0 | s => fold_left (fun n x => if Ascii.eqb x dot then S n else n) s 1 end.
(** 2139-2157 for a component without children; [top]: the parent is uvm_top *)
Definition full_under (p : comp) (top : bool) (n : str) : str :=
  if top then n else get_full_name p ++ dot :: n.

(** 2180-2203: the loop stops at the first dot or the last character *)
Fixpoint first_dot (s : str) (i : nat) : nat :=
  match s with
  | [] => 0                                    (* empty name: i stays 0 *)
  | [_] => i
  | c :: s => if Ascii.eqb c dot then i else first_dot s (S i)
  end.
Definition extract_name (name : str) : str * str :=
  let i := first_dot name 0 in
  if (Z.of_nat i =? Z.of_nat (length name) - 1)%Z then (name, [])
  else (firstn i name, skipn (S i) name).

Section Tree.
Context (dec : nat -> str).      (* str(int) *)

(** 158-280, for an existing parent; [k] other objects are made by the base classes first *)
Definition new (t : tree) (name : str) (p k : nat) : tree * list out :=
  let 'Tree cs bt n := t in
  let n := S n + k in
  if bt then (Tree cs bt n, [OFatal])                                               (* 226-231 *)
  else
    let name := match name with [] => ["C"; "O"; "M"; "P"; "_"]%char ++ dec n | _ => name end in  (* 233-234 *)
    match nth_error cs p with
    | None => (Tree cs bt n, [])
    | Some pc =>
        match get_kid (kids pc) name with
        | Some _ => (Tree cs bt n, [OFatal])                                        (* 249-260 *)
        | None =>
            let c := length cs in
            (Tree (set_at cs p (Comp (leaf pc) (full pc) (parent pc) (kids pc ++ [(name, c)]) (ptr pc)) ++
                   [Comp name (full_under pc (Nat.eqb p 0) name) (Some p) [] (-1)]) bt n, [ONew c])
        end
    end.

(** 392-405. A component with an empty m_name has no parent: it is uvm_top, whose children's
    names are recomputed to what they were, since the name of uvm_top is not part of them. *)
Definition set_name (t : tree) (c : nat) (name : str) : tree * list out :=
  match nth_error (comps t) c with
  | None => (t, [])
  | Some x =>
      match full x with
      | [] => (Tree (set_at (comps t) c (Comp name name (parent x) (kids x) (ptr x))) (built t) (insts t), [])
      | _ => (t, [OError])
      end
  end.

(** 407-442; [None]: out of fuel *)
Fixpoint lookup (fuel : nat) (t : tree) (c : nat) (name : str) : option (option nat * list out) :=
  match fuel with
  | O => None
  | S fuel =>
      let '(lf, rem) := extract_name name in
      let '(c, lf, rem) := match lf with [] => let '(l, r) := extract_name rem in (0, l, r) | _ => (c, lf, rem) end in
      match nth_error (comps t) c with
      | None => Some (None, [])
      | Some x =>
          match get_kid (kids x) lf with
          | None => Some (None, [OWarn])
          | Some k => match rem with [] => Some (Some k, []) | _ => lookup fuel t k rem end
          end
      end
  end.

Definition setptr (t : tree) (c : nat) (z : Z) : tree :=
  match nth_error (comps t) c with
  | None => t
  | Some x => Tree (set_at (comps t) c (Comp (leaf x) (full x) (parent x) (kids x) z)) (built t) (insts t)
  end.
(** 353-373 *)
Definition first_child (t : tree) (c : nat) : tree * option nat :=
  (setptr t c 0, match nth_error (comps t) c with Some x => option_map snd (hd_error (kids x)) | None => None end).
(** 343-351; a negative index counts from the end *)
Definition next_child (t : tree) (c : nat) : tree * option nat :=
  match nth_error (comps t) c with
  | None => (t, None)
  | Some x =>
      let p := (ptr x + 1)%Z in
      (setptr t c p,
       if (p <? Z.of_nat (length (kids x)))%Z
       then option_map snd (nth_error (kids x) (Z.to_nat (if (p <? 0)%Z then p + Z.of_nat (length (kids x)) else p)))
       else None)
  end.
(** 2568-2569 *)
Definition has_next_child (t : tree) (c : nat) : bool :=
  match nth_error (comps t) c with
  | None => false
  | Some x => (ptr x + 1 <? Z.of_nat (length (kids x)))%Z
  end.
(** uvm_root.py 467-489: the whole of it, and the loop 482-487. [FOther]: the pattern is
    outside the fragment of regular expressions of SvModel.v. *)
Inductive fres := FDone (t : tree) (l : list nat) | FRaise | FOther | FFuel.
Inductive job := Visit (c : nat) | Loop (c : nat) (child : option nat).
Fixpoint recurse (fuel : nat) (pat : str) (t : tree) (j : job) : fres :=
  match fuel with
  | O => FFuel
  | S fuel =>
      match j with
      | Visit c =>
          match nth_error (comps t) c with
          | None => FDone t []
          | Some x =>
              match (match kids x with
                     | [] => FDone t []
                     | _ => let '(t1, ch) := first_child t c in recurse fuel pat t1 (Loop c ch)
                     end) with
              | FDone t2 l =>
                  match uvm_is_match pat (get_full_name x) with
                  | None => FOther
                  | Some b => FDone t2 (l ++ if b && negb (str_eqb (leaf x) []) then [c] else [])
                  end
              | r => r
              end
          end
      | Loop c None => FRaise                                  (* None.has_first_child() *)
      | Loop c (Some ch) =>
          match recurse fuel pat t (Visit ch) with
          | FDone t1 l1 =>
              if has_next_child t1 c then
                let '(t2, ch2) := next_child t1 c in
                match recurse fuel pat t2 (Loop c ch2) with FDone t3 l3 => FDone t3 (l1 ++ l3) | r => r end
              else FDone t1 l1
          | r => r
          end
      end
  end.
Definition fuel_for (t : tree) : nat := 2 * length (comps t) + 1.
(** 424-439 *)
Definition find_all (t : tree) (pat : str) (c : nat) : fres := recurse (fuel_for t) pat t (Visit c).

Inductive lab :=
| LNew (name : str) (p k : nat)    (* the parent; 0 if None is given (239-240) *)
| LSetName (c : nat) (name : str)
| LBuilt | LObject
| LFullName (c : nat) | LDepth (c : nat) | LParent (c : nat)
| LGetChild (c : nat) (name : str) | LHasChild (c : nat) (name : str) | LNumChildren (c : nat) | LChildren (c : nat)
| LFirst (c : nat) | LNext (c : nat)
| LLookup (c : nat) (name : str)
| LFindAll (pat : str) (c : nat) | LFind (pat : str).

Definition about (t : tree) (c : nat) (f : comp -> out) : tree * list out :=
  match nth_error (comps t) c with Some x => (t, [f x]) | None => (t, []) end.
Definition step (t : tree) (l : lab) : tree * list out :=
  match l with
  | LNew name p k => new t name p k
  | LSetName c name => set_name t c name
  | LBuilt => (Tree (comps t) true (insts t), [])
  | LObject => (Tree (comps t) (built t) (S (insts t)), [])
  | LFullName c => about t c (fun x => OStr (get_full_name x))
  | LDepth c => about t c (fun x => ONum (get_depth x))
  | LParent c => about t c (fun x => OComp (parent x))
  | LGetChild c name => about t c (fun x => OComp (get_kid (kids x) name))
  | LHasChild c name => about t c (fun x => OBool (match get_kid (kids x) name with Some _ => true | None => false end))
  | LNumChildren c => about t c (fun x => ONum (length (kids x)))
  | LChildren c => about t c (fun x => OComps (map snd (kids x)))
  | LFirst c => let '(t', r) := first_child t c in (t', [OComp r])
  | LNext c => let '(t', r) := next_child t c in (t', [OComp r])
  | LLookup c name =>
      match lookup (S (length name)) t c name with Some (r, o) => (t, o ++ [OComp r]) | None => (t, []) end
  | LFindAll pat c =>
      match find_all t pat c with FDone t' l => (t', [OComps l]) | FRaise => (t, [ORaise]) | FOther | FFuel => (t, []) end
  (* uvm_root.py 398-422. Nothing found: the pattern is passed as verbosity, and comparing it
     with a number raises (416-419). *)
  | LFind pat =>
      match find_all t pat 0 with
      | FDone t' [] => (t', [ORaise])
      | FDone t' (c :: l) => (t', match l with [] => [] | _ => [OWarn] end ++ [OComp (Some c)])
      | FRaise => (t, [ORaise])
      | FOther | FFuel => (t, [])
      end
  end.
Definition build (n : nat) (ls : list lab) : tree * list out := run_machine step (tree0 n) ls.
End Tree.
