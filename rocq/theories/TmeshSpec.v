(** What users of a triangle mesh rely on. *)
From Verif Require Import Outcome BoxModel GeoModel TmeshModel.
From Coq Require Import Reals.
Local Open Scope nat_scope.

(** The same two vertices in any order *)
Definition same_ends (p q : nat * nat) : Prop := p = q ∨ p = (q.2, q.1).
(** The boundary of the triangle runs from the first vertex to the second; the
    third is the remaining one. *)
Definition winds (t : tri) (i0 i1 w : nat) : Prop :=
  t = (i0, i1, w) ∨ t = (w, i0, i1) ∨ t = (i1, w, i0).
(** The face has a side with these ends. *)
Definition has_side (ts : list tri) (f : nat) (p : nat * nat) : Prop :=
  ∃ t i0 i1 w, ts !! f = Some t ∧ winds t i0 i1 w ∧ same_ends p (i0, i1).
Definition in_range (nv : nat) (ts : list tri) : Prop :=
  ∀ f a b c, ts !! f = Some (a, b, c) → a < nv ∧ b < nv ∧ c < nv.
(** Side number [i] of a triangle *)
Definition nth_side (t : tri) (i : nat) : nat * nat :=
  let '(a, b, c) := t in match i with 0 => (a, b) | 1 => (b, c) | _ => (c, a) end.
