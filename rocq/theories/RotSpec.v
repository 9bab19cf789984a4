(** What a rotation is, independently of quaternions and matrices: a map of
    space that respects sums, multiples, dot products and cross products (so it
    keeps lengths, angles and handedness). *)
From Verif Require Import Outcome BoxModel GeoModel.
From Coq Require Import Reals.
Local Open Scope R_scope.

Definition is_rotation (f : v3 → v3) : Prop :=
  (∀ u v, f (u + v)%V = (f u + f v)%V) ∧
  (∀ s v, f (s * v)%V = (s * f v)%V) ∧
  (∀ u v, dot3 (f u) (f v) = dot3 u v) ∧
  (∀ u v, f (cross3 u v) = cross3 (f u) (f v)).

(** The turn of [v] by the angle [a] about the unit axis [n], counterclockwise
    seen from the tip of [n] (Rodrigues). *)
Definition turn (n : v3) (a : R) (v : v3) : v3 :=
  ((cos a * v + sin a * cross3 n v) + ((1 - cos a) * dot3 n v) * n)%V.

Definition unit3 (v : v3) : Prop := dot3 v v = 1.
