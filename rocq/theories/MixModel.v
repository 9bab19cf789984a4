(** Model of material_mix_table (include/edyn/dynamics/material_mixing.hpp:36-76)
    and of its key unordered_pair (include/edyn/core/unordered_pair.hpp).

    std::map is a binary search tree driven by the comparator, with the
    searches of libstdc++ (lower_bound, then one comparison).  The shape after
    insertion or erasure is not fixed: rebalancing keeps the in-order sequence
    and is a separate step in the histories below. *)
From Verif Require Import Outcome.

(** unordered_pair.hpp:33-41, operator< *)
Definition up_lt (p q : nat * nat) : bool :=
  if decide (p.1 = q.2 ∧ p.2 = q.1) then false
  else if decide (p.1 = q.1) then bool_decide (p.2 < q.2)
  else bool_decide (p.1 < q.1).
(** unordered_pair.hpp:28-31, operator== *)
Definition up_eq (p q : nat * nat) : bool :=
  bool_decide (p.1 = q.1 ∧ p.2 = q.2) || bool_decide (p.1 = q.2 ∧ p.2 = q.1).

Section bst.
Context {K V : Type} (lt : K → K → bool).
Inductive bst := BL | BN (l : bst) (k : K) (v : V) (r : bst).

(** std::map::lower_bound: last node not less than [k] on the descent *)
Fixpoint lower_bound (t : bst) (k : K) (acc : option (K * V)) : option (K * V) :=
  match t with
  | BL => acc
  | BN l k' v r => if lt k' k then lower_bound r k acc else lower_bound l k (Some (k', v))
  end.
(** find, count and at *)
Definition bfind (t : bst) (k : K) : option V :=
  '(k', v) ← lower_bound t k None; if lt k k' then None else Some v.
(** operator[] followed by assignment: overwrite the element found, otherwise
    descend and attach a leaf. *)
Fixpoint battach (t : bst) (k : K) (v : V) : bst :=
  match t with
  | BL => BN BL k v BL
  | BN l k' v' r => if lt k k' then BN (battach l k v) k' v' r else BN l k' v' (battach r k v)
  end.
Fixpoint boverwrite (t : bst) (k : K) (v : V) : bst :=
  match t with
  | BL => BL
  | BN l k' v' r =>
    if lt k' k then BN l k' v' (boverwrite r k v)
    else if lt k k' then BN (boverwrite l k v) k' v' r
    else BN l k' v r
  end.
Definition binsert (t : bst) (k : K) (v : V) : bst :=
  match bfind t k with Some _ => boverwrite t k v | None => battach t k v end.
(** erase by key *)
Fixpoint bjoin (l r : bst) : bst :=
  match l with BL => r | BN a k v b => BN a k v (bjoin b r) end.
Fixpoint berase (t : bst) (k : K) : bst :=
  match t with
  | BL => BL
  | BN l k' v r =>
    if lt k' k then BN l k' v (berase r k)
    else if lt k k' then BN (berase l k) k' v r
    else bjoin l r
  end.
Fixpoint inorder (t : bst) : list (K * V) :=
  match t with BL => [] | BN l k v r => inorder l ++ (k, v) :: inorder r end.
End bst.
Arguments bst : clear implicits.

(** The table: insert (material_mixing.hpp:44-50), try_get (60-65), remove
    (71-73).  The id assertions (no id equals the reserved maximum) are
    preconditions. *)
Section table.
Context {V : Type}.
Inductive mixop := MixInsert (p : nat * nat) (v : V) | MixRemove (p : nat * nat).
Definition mix_step (t : bst (nat * nat) V) (o : mixop) : bst (nat * nat) V :=
  match o with
  | MixInsert p v => binsert up_lt t p v
  | MixRemove p => berase up_lt t p
  end.
Inductive mix_reach : list mixop → bst (nat * nat) V → Prop :=
| mix_nil : mix_reach [] BL
| mix_op ops t o : mix_reach ops t → mix_reach (ops ++ [o]) (mix_step t o)
| mix_rebalance ops t t' : mix_reach ops t → inorder t = inorder t' → mix_reach ops t'.
Definition try_get (t : bst (nat * nat) V) (p : nat * nat) : option V := bfind up_lt t p.
End table.
Arguments mixop : clear implicits.
