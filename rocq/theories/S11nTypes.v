(** Types and values handled by the serialization code. *)
From stdpp Require Export prelude list gmap.
From Coq Require Export NArith.

(** Types with a [serialize] function in std_s11n.hpp, over fundamental types.
    [TInt n] is a fundamental type of [n] bytes (integer, character, floating
    point, enumeration): its values are bit patterns. [TStr] behaves as a vector
    of one-byte values. *)
Inductive ty :=
| TInt (n : nat) | TBool | TEmpty | TStr | TBits
| TVec (t : ty) | TArr (n : nat) (t : ty) | TPair (a b : ty)
| TVar (ts : list ty) | TOpt (t : ty) | TMap (k v : ty).

(** [VList]: strings, vectors and arrays; [VMap]: entries in key order. *)
Inductive val :=
| VInt (x : N) | VBool (b : bool) | VUnit | VBits (l : list bool)
| VList (l : list val) | VPair (a b : val) | VVar (i : nat) (v : val)
| VNone | VSome (v : val) | VMap (l : list (val * val)).
