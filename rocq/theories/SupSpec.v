(** Support values and bounding boxes, stated for sets of points. *)
From Verif Require Import Outcome BoxModel GeoModel NearSpec RayModel RaySpec SupModel.
From Coq Require Import Reals.
Local Open Scope R_scope.

(** The greatest value of [x . d] over the set *)
Definition is_support (S : v3 → Prop) (d : v3) (p : R) : Prop :=
  (∀ x, S x → dot3 x d <= p) ∧ ∃ x, S x ∧ dot3 x d = p.
(** A point of the set where it is taken *)
Definition furthest (S : v3 → Prop) (d x : v3) : Prop :=
  S x ∧ ∀ y, S y → dot3 y d <= dot3 x d.

Definition le3 (v w : v3) : Prop := vx v <= vx w ∧ vy v <= vy w ∧ vz v <= vz w.
Definition in_aabb (b : aabb R) (x : v3) : Prop := le3 (bmin b) x ∧ le3 x (bmax b).
(** The box contains the set, and every box that contains the set contains it *)
Definition encloses (b : aabb R) (S : v3 → Prop) : Prop := ∀ x, S x → in_aabb b x.
Definition least_box (b : aabb R) (S : v3 → Prop) : Prop :=
  encloses b S ∧ ∀ c, encloses c S → le3 (bmin c) (bmin b) ∧ le3 (bmax b) (bmax c).

(** The closed convex hull: what lies in every half-space that contains the points *)
Definition hull (ps : list v3) (x : v3) : Prop :=
  ∀ d k, (∀ p, p ∈ ps → dot3 p d <= k) → dot3 x d <= k.

(** The half-space below a plane *)
Definition below (n : v3) (k : R) (x : v3) : Prop := dot3 x n <= k.

(** Nonnegative combinations of vectors *)
Inductive cone (G : v3 → Prop) : v3 → Prop :=
| cone_zero : cone G (V3 0 0 0)
| cone_step c g x : 0 <= c → G g → cone G x → cone G (add3 (scl c g) x).
(** The neighbours of a vertex are listed from one start to the next *)
Definition adjacent (ns ni : list nat) (i j : nat) : Prop :=
  ∃ a b k, ns !! i = Some a ∧ ns !! S i = Some b ∧ (a <= k < b)%nat ∧ ni !! k = Some j.
Definition table_ok (n : nat) (ns ni : list nat) : Prop :=
  length ns = S n ∧ (∀ i a b, ns !! i = Some a → ns !! S i = Some b → (b <= length ni)%nat) ∧
  (∀ k j, ni !! k = Some j → (j < n)%nat).
(** All of the mesh lies in the cone of the edges at each vertex, as in a convex polyhedron *)
Definition edges_span (vs : list v3) (ns ni : list nat) : Prop :=
  ∀ i j v w, vs !! i = Some v → vs !! j = Some w →
    cone (λ g, ∃ k u, adjacent ns ni i k ∧ vs !! k = Some u ∧ g = sub3 u v) (sub3 w v).

(** How far a direction is off an axis, as a square; directions of the world
    that the tolerance of the code does not touch *)
Definition off_axis (a d : v3) : R := lsq d - dot3 d a * dot3 d a.
Definition axes_clear (a : v3) : Prop :=
  ∀ e, e ∈ [ex; ey; ez] → off_axis a e = 0 ∨ eps < off_axis a e.
(** A box enlarged by a margin *)
Definition grown (k : R) (b : box) : box := Box (sub3 (bmin b) (V3 k k k)) (add3 (bmax b) (V3 k k k)).
(** Coordinates that are numbers of the code *)
Definition in_range (ps : list v3) : Prop :=
  ∀ p, p ∈ ps → Rabs (vx p) <= scalar_max ∧ Rabs (vy p) <= scalar_max ∧ Rabs (vz p) <= scalar_max.
Definition valid (b : box) : Prop := le3 (bmin b) (bmax b).

(** The points of a shape at a place *)
Definition part_set (s : sshape) (pos : v3) (orn : quat) : v3 → Prop :=
  match s with
  | SSphere r => ball pos r
  | SBox h => placed pos orn (in_box h)
  | SCylinder r hl a => cylinder pos (axis_vec_q a orn) r hl
  | SCapsule r hl a => capsule (sub3 pos (scl hl (axis_vec_q a orn))) (add3 pos (scl hl (axis_vec_q a orn))) r
  | SPolyhedron vs => placed pos orn (hull vs)
  end.
(** Nonnegative sizes; a polyhedron has vertices; a cylinder avoids the tolerance *)
Definition part_ok (s : sshape) (pos : v3) (orn : quat) : Prop :=
  match s with
  | SSphere r => 0 <= r
  | SBox h => 0 <= vx h ∧ 0 <= vy h ∧ 0 <= vz h
  | SCylinder r hl a => 0 <= r ∧ 0 <= hl ∧ axes_clear (axis_vec_q a orn)
  | SCapsule r hl a => 0 <= r
  | SPolyhedron vs => vs ≠ [] ∧ in_range ((λ p, to_world p pos orn) <$> vs)
  end.
Definition node_ok (n : snode) : Prop := qlsq (sn_orn n) = 1 ∧ part_ok (sn_shape n) (sn_pos n) (sn_orn n).
Definition node_set (n : snode) : v3 → Prop := part_set (sn_shape n) (sn_pos n) (sn_orn n).

(** The boxes of the procedural nodes that have one *)
Definition island_boxes (nodes : list (bool * option box)) : list box :=
  omap (λ n, match n with (true, Some c) => Some c | _ => None end) nodes.

Definition max_of3 (a b c : R) : R := Rmax a (Rmax b c).
Definition pick3 {A} (k : nat) (a b c : A) : A := match k with 0%nat => a | 1%nat => b | _ => c end.
(** Every coordinate within a distance *)
Definition near3 (k : R) (x y : v3) : Prop := Rabs (vx x - vx y) <= k ∧ Rabs (vy x - vy y) <= k ∧ Rabs (vz x - vz y) <= k.
