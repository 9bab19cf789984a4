(** Solids, and where a line, a half-line or a segment enters them. *)
From Verif Require Import Outcome BoxModel GeoModel RotSpec NearModel NearSpec RayModel.
From Coq Require Import Reals.
Local Open Scope R_scope.

(** The point at a fraction of the way from [p0] to [p1] *)
Definition along (p0 p1 : v3) (t : R) : v3 := add3 p0 (scl t (sub3 p1 p0)).

(** The first point of the line, of the half-line from [p0] on, and of the
    segment that is in the set *)
Definition line_entry (S : v3 → Prop) (p0 p1 : v3) (t : R) : Prop :=
  S (along p0 p1 t) ∧ ∀ t', S (along p0 p1 t') → t <= t'.
Definition ray_entry (S : v3 → Prop) (p0 p1 : v3) (t : R) : Prop :=
  0 <= t ∧ S (along p0 p1 t) ∧ ∀ t', 0 <= t' → S (along p0 p1 t') → t <= t'.
Definition segment_entry (S : v3 → Prop) (p0 p1 : v3) (t : R) : Prop :=
  0 <= t <= 1 ∧ S (along p0 p1 t) ∧ ∀ t', 0 <= t' <= 1 → S (along p0 p1 t') → t <= t'.
Definition meets_line (S : v3 → Prop) (p0 p1 : v3) : Prop := ∃ t, S (along p0 p1 t).
Definition meets_ray (S : v3 → Prop) (p0 p1 : v3) : Prop := ∃ t, 0 <= t ∧ S (along p0 p1 t).
Definition meets_segment (S : v3 → Prop) (p0 p1 : v3) : Prop := ∃ t, 0 <= t <= 1 ∧ S (along p0 p1 t).

(** A unit vector that points out of the set at one of its points *)
Definition outward (S : v3 → Prop) (x n : v3) : Prop :=
  unit3 n ∧ ∀ y, S y → dot3 (sub3 y x) n <= 0.

(** Solids at a place *)
Definition ball (c : v3) (r : R) (x : v3) : Prop := GeoModel.dist x c <= r.
Definition placed (pos : v3) (orn : quat) (S : v3 → Prop) (x : v3) : Prop := ∃ y, S y ∧ x = to_world y pos orn.
Definition cylinder (pos a : v3) (r hl : R) (x : v3) : Prop :=
  - hl <= dot3 (sub3 x pos) a <= hl ∧ GeoModel.dist x (add3 pos (scl (dot3 (sub3 x pos) a) a)) <= r.
Definition capsule (v0 v1 : v3) (r : R) (x : v3) : Prop := ∃ y, on_segment v0 v1 y ∧ GeoModel.dist x y <= r.
(** The points behind every face, a face being one of its points and its normal *)
Definition behind (faces : list (v3 * v3)) (x : v3) : Prop :=
  ∀ v n, (v, n) ∈ faces → dot3 (sub3 x v) n <= 0.
Definition plane_set (n : v3) (k : R) (x : v3) : Prop := dot3 x n = k.
(** The triangle with the given corners *)
Definition on_triangle (a b c x : v3) : Prop :=
  ∃ u v w, 0 <= u ∧ 0 <= v ∧ 0 <= w ∧ u + v + w = 1 ∧ x = add3 (add3 (scl u a) (scl v b)) (scl w c).

(** Position along an axis and squared distance from it *)
Definition axial (pos a x : v3) : R := dot3 (sub3 x pos) a.
Definition rad2 (pos a x : v3) : R := lsq (sub3 x pos) - axial pos a x * axial pos a x.

(** The unit normal that the corners of a triangle go around *)
Definition winding (v0 v1 v2 n : v3) : Prop :=
  unit3 n ∧ ∃ k, 0 < k ∧ n = scl k (cross3 (sub3 v1 v0) (sub3 v2 v0)).
Definition mesh_set (ts : list tri) (x : v3) : Prop := ∃ t, t ∈ ts ∧ on_triangle (t_v0 t) (t_v1 t) (t_v2 t) x.

(** Rays that the tolerances of the code do not touch: along each axis of the
    box their direction is zero or beyond the tolerance; they are parallel to
    the axis of the cylinder or sufficiently far from it; they cross the plane
    of the triangle, or are parallel to it and apart from it. *)
Definition dirs_clear (orn : quat) (p0 p1 : v3) : Prop :=
  ∀ a, let d := dot3 (sub3 p1 p0) (axis_vec_q a orn) in d = 0 ∨ eps <= Rabs d.
Definition axis_clear (hl : R) (a p0 p1 : v3) : Prop :=
  let n := lsq (cross3 (scl (2 * hl) a) (sub3 p1 p0)) in n = 0 ∨ eps < n.
Definition tri_clear (p0 p1 v0 n : v3) : Prop :=
  eps < Rabs (dot3 (sub3 p1 p0) n) ∨ (dot3 (sub3 p1 p0) n = 0 ∧ eps < Rabs (dot3 (sub3 v0 p0) n)).
