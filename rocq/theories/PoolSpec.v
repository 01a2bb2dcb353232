(** Specification of pools: what a history says about one key, and when the key
    was inserted. Does not mention the pool's representation. *)
From Coq Require Import ZArith List Bool Arith.
From Verif Require Import PoolModel.
Import ListNotations.

Open Scope nat_scope.
Section Spec.
Context {K V : Type} (eq_dec : forall a b : K, {a = b} + {a <> b}).


(** State of the whole abstract map: a function; plus the number of calls made
    and of objects constructed so far. *)
Record amap := AMap { val : K -> option V; birth : K -> nat; now : nat; built : nat }.

Definition amap0 : amap := AMap (fun _ => None) (fun _ => 0) 0 0.

Definition put (m : amap) (k : K) (v : V) (built' : nat) : amap :=
  AMap (fun k' => if eq_dec k' k then Some v else val m k')
       (fun k' => if eq_dec k' k then (match val m k with None => now m | Some _ => birth m k end)
                  else birth m k')
       (S (now m)) built'.
Definition drop (m : amap) (gone : K -> bool) : amap :=
  AMap (fun k' => if gone k' then None else val m k') (birth m) (S (now m)) (built m).

Definition astep (T : option (nat -> V)) (m : amap) (o : pop K V) : amap :=
  match o with
  | PAdd k v => put m k v (built m)
  | PGet k => match val m k, T with
              | None, Some mk => put m k (mk (built m)) (S (built m))
              | _, _ => drop m (fun _ => false)
              end
  | PDelete None => drop m (fun _ => true)
  | PDelete (Some k) => drop m (fun k' => if eq_dec k' k then true else false)
  | _ => drop m (fun _ => false)
  end.
Definition arun (T : option (nat -> V)) (os : list (pop K V)) : amap := fold_left (astep T) os amap0.

End Spec.
