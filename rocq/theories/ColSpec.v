(** What a contact point tells about two solids. *)
From Verif Require Import Outcome BoxModel GeoModel RotSpec NearModel NearSpec RayModel RaySpec SupModel SupSpec ColModel.
From Coq Require Import Reals.
Local Open Scope R_scope.

(** A point of each of the solids [A] and [B]; the one of [A] is [d] away from
    that of [B] along the unit vector [n]; and no point of [A] is less than [d]
    away from any point of [B] in that direction. *)
Definition contact (A B : v3 → Prop) (pa pb n : v3) (d : R) : Prop :=
  A pa ∧ B pb ∧ unit3 n ∧ sub3 pa pb = scl d n ∧ ∀ a b, A a → B b → d <= dot3 (sub3 a b) n.
(** The pivots are in the spaces of the bodies *)
Definition world_a (c : cctx) (p : cpoint) : v3 := to_world (p_a p) (c_posA c) (c_ornA c).
Definition world_b (c : cctx) (p : cpoint) : v3 := to_world (p_b p) (c_posB c) (c_ornB c).
Definition contact_point (A B : v3 → Prop) (c : cctx) (p : cpoint) : Prop :=
  contact A B (world_a c p) (world_b c p) (p_normal p) (p_dist p).
Definition apart (A B : v3 → Prop) (t : R) : Prop := ∀ a b, A a → B b → t < GeoModel.dist a b.
(** No point: the solids are further apart than the threshold *)
Definition contacts (A B : v3 → Prop) (c : cctx) (l : list cpoint) : Prop :=
  (l = [] → apart A B (c_thr c)) ∧ ∀ p, p ∈ l → contact_point A B c p ∧ p_dist p <= c_thr c.

Definition moved (v : v3) (S : v3 → Prop) (x : v3) : Prop := S (sub3 x v).
Definition convex (S : v3 → Prop) : Prop :=
  ∀ x y t, S x → S y → 0 <= t <= 1 → S (add3 x (scl t (sub3 y x))).
(** All points within a distance of a set *)
Definition rounded (S : v3 → Prop) (r : R) (x : v3) : Prop := ∃ y, S y ∧ GeoModel.dist x y <= r.

(** Bodies are turned by unit quaternions *)
Definition turned (c : cctx) : Prop := qlsq (c_ornA c) = 1 ∧ qlsq (c_ornB c) = 1.
(** The capsule at a place, in the order of capsule_shape::get_vertices *)
Definition capsule_at (r hl : R) (a : axis) (pos : v3) (orn : quat) : v3 → Prop :=
  capsule (capsule_vertex hl a pos orn false) (capsule_vertex hl a pos orn true) r.
(** Two points coincide or are further apart than the tolerance *)
Definition clear_of (x y : v3) : Prop := x = y ∨ eps < lsq (sub3 x y).

(** Two segments cross at an angle, or are apart *)
Definition crossing_ok (p1 q1 p2 q2 : v3) : Prop :=
  ∀ x y, nearest_pair (on_segment p1 q1) (on_segment p2 q2) x y →
    (x = y ∧ eps < lsq (cross3 (sub3 q1 p1) (sub3 q2 p2))) ∨ eps < lsq (sub3 x y).

(** Contact with the half-space below a plane: the point of the plane is below
    that of the solid; no point only if all of the solid is higher than the
    threshold; otherwise one of the points is the lowest of the solid, up to a
    margin. *)
Definition plane_point (A : v3 → Prop) (n : v3) (k : R) (pa pb : v3) (d : R) : Prop :=
  A pa ∧ dot3 pb n = k ∧ sub3 pa pb = scl d n.
Definition plane_contacts (A : v3 → Prop) (n : v3) (k margin : R) (c : cctx) (l : list cpoint) : Prop :=
  (l = [] ↔ ∀ a, A a → c_thr c < dot3 a n - k) ∧
  (∀ p, p ∈ l → p_normal p = n ∧ plane_point A n k (world_a c p) (world_b c p) (p_dist p)) ∧
  (l ≠ [] → ∃ p, p ∈ l ∧ ∀ a, A a → p_dist p <= dot3 a n - k + margin).
(** The body of the plane is at the origin and not turned *)
Definition plane_home (c : cctx) : Prop := c_posB c = V3 0 0 0 ∧ c_ornB c = qid.

(** The place of a part of a compound *)
Definition part_pos (n : snode) (pos : v3) (orn : quat) : v3 := to_world (sn_pos n) pos orn.
Definition part_orn (n : snode) (orn : quat) : quat := qmul orn (sn_orn n).
(** The context of a part of A, and of a part of B *)
Definition part_ctx_a (c : cctx) (n : snode) : cctx :=
  CC (part_pos n (c_posA c) (c_ornA c)) (part_orn n (c_ornA c)) (c_posB c) (c_ornB c) (c_thr c).
Definition part_ctx_b (c : cctx) (n : snode) : cctx :=
  CC (c_posA c) (c_ornA c) (part_pos n (c_posB c) (c_ornB c)) (part_orn n (c_ornB c)) (c_thr c).
(** The same point of contact for two pairs of bodies *)
Definition same_point (c : cctx) (p : cpoint) (c' : cctx) (q : cpoint) : Prop :=
  world_a c p = world_a c' q ∧ world_b c p = world_b c' q ∧ p_normal p = p_normal q ∧ p_dist p = p_dist q ∧ p_attach p = p_attach q.
(** The corners of a box, and those of the face that points most along [d] *)
Definition box_corner (h u : v3) : Prop :=
  (vx u = vx h ∨ vx u = - vx h) ∧ (vy u = vy h ∨ vy u = - vy h) ∧ (vz u = vz h ∨ vz u = - vz h).
Definition facing (d : v3) (a : axis) (s : R) : Prop :=
  (s = 1 ∨ s = -1) ∧ 0 <= s * el a d ∧ ∀ b, Rabs (el b d) <= Rabs (el a d).
Definition face_corner (h : v3) (a : axis) (s : R) (u : v3) : Prop := box_corner h u ∧ el a u = s * el a h.
