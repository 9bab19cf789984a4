(** Which values a type has, and which of them fit the wire format. Independent
    of how they are written. *)
From Verif Require Export S11nTypes.
From Coq Require Import Sorted.

Section spec.
(** operator< of the map keys *)
Variable klt : val → val → bool.

Inductive has_ty : ty → val → Prop :=
| H_int n x : (x < 256 ^ N.of_nat n)%N → has_ty (TInt n) (VInt x)
| H_bool b : has_ty TBool (VBool b)
| H_empty : has_ty TEmpty VUnit
| H_str l : Forall (has_ty (TInt 1)) l → has_ty TStr (VList l)
| H_bits l : has_ty TBits (VBits l)
| H_vec t l : Forall (has_ty t) l → has_ty (TVec t) (VList l)
| H_arr n t l : length l = n → Forall (has_ty t) l → has_ty (TArr n t) (VList l)
| H_pair a b x y : has_ty a x → has_ty b y → has_ty (TPair a b) (VPair x y)
| H_var ts i t v : ts !! i = Some t → has_ty t v → has_ty (TVar ts) (VVar i v)
| H_none t : has_ty (TOpt t) VNone
| H_some t v : has_ty t v → has_ty (TOpt t) (VSome v)
| H_map k v l : Forall (λ e, has_ty k e.1 ∧ has_ty v e.2) l →
                StronglySorted (λ a b, klt a.1 b.1 = true) l → has_ty (TMap k v) (VMap l).
End spec.

Definition limit16 : nat := N.to_nat 65535.
(** Every container in the value holds at most 65535 elements. *)
Fixpoint fits (v : val) : Prop :=
  match v with
  | VInt _ | VBool _ | VUnit | VNone => True
  | VBits l => length l ≤ limit16
  | VList l => length l ≤ limit16 ∧ (fix all l := match l with [] => True | x :: l => fits x ∧ all l end) l
  | VPair a b => fits a ∧ fits b
  | VVar _ v | VSome v => fits v
  | VMap l => length l ≤ limit16 ∧
      (fix all (l : list (val * val)) := match l with [] => True | e :: l => (fits e.1 ∧ fits e.2) ∧ all l end) l
  end.

(** Types whose objects forget their previous content when read into: all but
    those that contain a map outside of a variant or an optional. *)
Fixpoint resets (t : ty) : Prop :=
  match t with
  | TInt _ | TBool | TEmpty | TStr | TBits | TVar _ | TOpt _ => True
  | TVec t | TArr _ t => resets t
  | TPair a b => resets a ∧ resets b
  | TMap _ _ => False
  end.
(** Types that can be read back: alternatives of a variant are distinct and at
    most 256, and keys and values of a map forget their previous content. *)
Fixpoint good (t : ty) : Prop :=
  match t with
  | TInt _ | TBool | TEmpty | TStr | TBits => True
  | TVec t | TArr _ t | TOpt t => good t
  | TPair a b => good a ∧ good b
  | TVar ts => NoDup ts ∧ length ts ≤ 256 ∧ (fix all l := match l with [] => True | x :: l => good x ∧ all l end) ts
  | TMap k v => good k ∧ good v ∧ resets k ∧ resets v
  end.
