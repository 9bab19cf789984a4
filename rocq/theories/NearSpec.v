(** Points of lines, segments, discs, boxes and circles, and what it means for
    points to be the nearest ones. *)
From Verif Require Import Outcome BoxModel GeoModel NearModel.
From Coq Require Import Reals.
Local Open Scope R_scope.

Definition on_segment (a b x : v3) : Prop := ∃ t, 0 <= t <= 1 ∧ x = add3 a (scl t (sub3 b a)).
Definition on_line (a d x : v3) : Prop := ∃ t, x = add3 a (scl t d).
(** The disc of centre [c], axis [n] and radius [r] *)
Definition on_disc (c n : v3) (r : R) (x : v3) : Prop := dot3 (sub3 x c) n = 0 ∧ GeoModel.dist x c <= r.
(** The box of half extents [h] around the origin, and its six faces *)
Definition in_box (h x : v3) : Prop :=
  - vx h <= vx x <= vx h ∧ - vy h <= vy x <= vy h ∧ - vz h <= vz x <= vz h.
Definition on_box (h x : v3) : Prop :=
  in_box h x ∧ (Rabs (vx x) = vx h ∨ Rabs (vy x) = vy h ∨ Rabs (vz x) = vz h).

Definition nearest (S : v3 → Prop) (p q : v3) : Prop :=
  S q ∧ ∀ x, S x → GeoModel.dist p q <= GeoModel.dist p x.
Definition nearest_pair (S T : v3 → Prop) (x y : v3) : Prop :=
  S x ∧ T y ∧ ∀ x' y', S x' → T y' → GeoModel.dist x y <= GeoModel.dist x' y'.

(** The two segments run in the same direction, the second one starts past the
    middle of the first one and ends past its end *)
Definition late_overlap (p1 q1 p2 q2 : v3) : Prop :=
  let d := sub3 q1 p1 in
  0 < dot3 d (sub3 q2 p2) ∧ lsq d < 2 * dot3 d (sub3 p2 p1) ∧ lsq d < dot3 d (sub3 q2 p1).

(** Each segment is a single point or longer than the tolerance; if both are
    long, their directions are parallel or further from it than the tolerance *)
Definition seg_clear (p1 q1 p2 q2 : v3) : Prop :=
  let n := lsq (cross3 (sub3 q1 p1) (sub3 q2 p2)) in
  (p1 = q1 ∨ eps < lsq (sub3 q1 p1)) ∧ (p2 = q2 ∨ eps < lsq (sub3 q2 p2)) ∧ (n = 0 ∨ eps < n).

(** The circle of centre [c] and radius [r] in the plane *)
Definition on_circle (c : v2) (r : R) (x : v2) : Prop := (ux x - ux c) ^ 2 + (uy x - uy c) ^ 2 = r ^ 2.
Definition line2 (a b : v2) (t : R) : v2 :=
  V2 (ux a + t * (ux b - ux a)) (uy a + t * (uy b - uy a)).
