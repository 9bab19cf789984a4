(** Points of the plane: segments, rectangles, polygons and hulls. *)
From Verif Require Import Outcome GeoModel NearModel PlaneModel.
From Coq Require Import Reals.
Local Open Scope R_scope.

(** The point of the line through [a] and [b] with a parameter *)
Definition pt (a b : v2) (t : R) : v2 := V2 (ux a + t * (ux b - ux a)) (uy a + t * (uy b - uy a)).
Definition on_seg (a b x : v2) : Prop := ∃ t, 0 <= t <= 1 ∧ x = pt a b t.
(** Both segments have the point *)
Definition shared (p0 p1 q0 q1 x : v2) : Prop := on_seg p0 p1 x ∧ on_seg q0 q1 x.

(** Twice the signed area of the triangle [a], [b], [c]: positive if [c] is on the left of a walk from [a] to [b] *)
Definition left_of (a b c : v2) : R :=
  (ux b - ux a) * (uy c - uy a) - (uy b - uy a) * (ux c - ux a).
(** How far [c] is ahead of [a] on a walk from [a] to [b], times the length of the walk *)
Definition ahead (a b c : v2) : R :=
  (ux b - ux a) * (ux c - ux a) + (uy b - uy a) * (uy c - uy a).
Definition dist_sq (a b : v2) : R := (ux a - ux b) * (ux a - ux b) + (uy a - uy b) * (uy a - uy b).

(** Rectangles *)
Definition in_rect (mn mx x : v2) : Prop := ux mn <= ux x <= ux mx ∧ uy mn <= uy x <= uy mx.
Definition on_rect (mn mx x : v2) : Prop :=
  in_rect mn mx x ∧ (ux x = ux mn ∨ ux x = ux mx ∨ uy x = uy mn ∨ uy x = uy mx).
(** The line is exactly parallel to an axis, or clearly not *)
Definition clear_of (d : R) : Prop := d = 0 ∨ eps <= Rabs d.

(** The parameters enclose [t]; or there is only one, and [t] is next to it *)
Definition covers (l : list R) (t : R) : Prop :=
  (∃ a b, a ∈ l ∧ b ∈ l ∧ a <= t <= b) ∨ (∃ s, l = [s] ∧ Rabs (t - s) <= eps).

(** Polygons: corners counted cyclically *)
Definition corner (l : list v2) (i : nat) : v2 := nth (i mod length l) l (V2 0 0).
Definition in_polygon (l : list v2) (x : v2) : Prop := ∀ i, 0 <= left_of (corner l i) (corner l (S i)) x.
Definition inside_polygon (l : list v2) (x : v2) : Prop := ∀ i, 0 < left_of (corner l i) (corner l (S i)) x.
(** A convex polygon, counter-clockwise, that turns at each corner *)
Definition convex (l : list v2) : Prop :=
  (3 <= length l)%nat ∧ (∀ k, in_polygon l (corner l k)) ∧
  ∀ i, 0 < left_of (corner l i) (corner l (S i)) (corner l (S (S i))).
(** No corner is acute *)
Definition blunt (l : list v2) : Prop :=
  ∀ i, ahead (corner l (S i)) (corner l (S (S i))) (corner l i) <= 0.
(** The polygon that indices select *)
Definition selected (vs : list v2) (ix : list nat) : list v2 := map (λ i, nth i vs (V2 0 0)) ix.

(** Coordinates far from the range of a float *)
Definition tame (p : v2) : Prop := - 2 ^ 62 <= ux p <= 2 ^ 62 ∧ - 2 ^ 62 <= uy p <= 2 ^ 62.
(** Consecutive elements of a list, and of a list closed to a cycle *)
Definition step_of {A} (l : list A) (a b : A) : Prop := ∃ l1 l2, l = l1 ++ a :: b :: l2.
Definition side_of {A} (l : list A) (a b : A) : Prop :=
  step_of l a b ∨ (last l = Some a ∧ head l = Some b).
(** The point is the farthest of all in some direction *)
Definition extreme (ps : list v2) (v : v2) : Prop :=
  ∃ a b : R, (a ≠ 0 ∨ b ≠ 0) ∧ ∀ p, p ∈ ps → a * ux p + b * uy p <= a * ux v + b * uy v.
(** No point is right of a side of the hull by more than the tolerance (times the length of the side) *)
Definition fits (ps : list v2) (tol : R) (l : list nat) : Prop := ∀ x y vx vy q, side_of l x y →
  ps !! x = Some vx → ps !! y = Some vy → q ∈ ps → - tol <= left_of vx vy q.
(** The hull of a narrow upright set: its highest and its lowest point *)
Definition narrow (ps : list v2) (tol : R) (l : list nat) : Prop := ∃ a b va vb, l = [a; b] ∧
  ps !! a = Some va ∧ ps !! b = Some vb ∧
  ∀ q, q ∈ ps → uy vb <= uy q <= uy va ∧ Rabs (ux q - ux va) < tol ∧ Rabs (ux q - ux vb) < tol.
(** The hull has a leftmost and a rightmost point, at least the tolerance apart *)
Definition spans (ps : list v2) (tol : R) (l : list nat) : Prop := ∃ a b va vb, a ∈ l ∧ b ∈ l ∧
  ps !! a = Some va ∧ ps !! b = Some vb ∧ ux va + tol <= ux vb ∧ ∀ q, q ∈ ps → ux va <= ux q <= ux vb.
