(** What volumes and moments of inertia are: integrals over the solid.
    Independent of the formulas of the code. *)
From Coquelicot Require Import Coquelicot.
From Verif Require Import Outcome BoxModel GeoModel MassModel.
From Coq Require Import Reals.
Local Open Scope R_scope.

(** The integral of [f] over the points (x, y, z) with x between [x0] and [x1],
    y between [y0 x] and [y1 x] and z between [z0 x y] and [z1 x y] exists and
    is [i]. *)
Definition integral3 (x0 x1 : R) (y0 y1 : R → R) (z0 z1 : R → R → R) (f : R → R → R → R) (i : R) : Prop :=
  x0 <= x1 ∧
  (∀ x, x0 <= x <= x1 → y0 x <= y1 x) ∧
  (∀ x y, x0 <= x <= x1 → y0 x <= y <= y1 x → z0 x y <= z1 x y) ∧
  ∃ (g : R → R → R) (h : R → R),
    (∀ x y, x0 <= x <= x1 → y0 x <= y <= y1 x → is_RInt (f x y) (z0 x y) (z1 x y) (g x y)) ∧
    (∀ x, x0 <= x <= x1 → is_RInt (g x) (y0 x) (y1 x) (h x)) ∧
    is_RInt h x0 x1 i.

(** A solid is what can be integrated over. *)
Definition solid : Type := (v3 → R) → R → Prop.

(** The box centred at the origin with half extents [h]. *)
Definition s_box (h : v3) : solid := λ f i,
  integral3 (- vx h) (vx h) (λ _, - vy h) (λ _, vy h) (λ _ _, - vz h) (λ _ _, vz h) (λ x y z, f (V3 x y z)) i.

(** The point with coordinate [x] along the axis and [y], [z] along the other
    two, in cyclic order. *)
Definition pt (a : axis) (x y z : R) : v3 :=
  match a with AX => V3 x y z | AY => V3 z x y | AZ => V3 y z x end.
(** The points between [lo] and [hi] along the axis whose squared distance to
    the axis is at most [r2 x]. *)
Definition s_revolved (a : axis) (lo hi : R) (r2 : R → R) : solid := λ f i,
  integral3 lo hi (λ x, - sqrt (r2 x)) (λ x, sqrt (r2 x))
    (λ x y, - sqrt (r2 x - y * y)) (λ x y, sqrt (r2 x - y * y)) (λ x y z, f (pt a x y z)) i.
Definition s_cylinder (a : axis) (r hl : R) : solid := s_revolved a (- hl) hl (λ _, r * r).
Definition s_sphere (r : R) : solid := s_revolved AX (- r) r (λ x, r * r - x * x).
(** The points at most [r] away from the segment from -hl to hl on the axis. *)
Definition s_capsule (a : axis) (r hl : R) : solid :=
  s_revolved a (- (hl + r)) (hl + r) (λ x, r * r - Rmax 0 (Rabs x - hl) * Rmax 0 (Rabs x - hl)).

(** The tetrahedron spanned by the origin and three points, counted negative if
    they are in clockwise order seen from outside; the factor is the determinant
    of the change of coordinates. *)
Definition s_tet (a b c : v3) : solid := λ f i,
  ∃ j, integral3 0 1 (λ _, 0) (λ x, 1 - x) (λ _ _, 0) (λ x y, 1 - x - y)
         (λ x y z, f (x * a + y * b + z * c)%V) j ∧ i = triple3 a b c * j.
(** A solid bounded by triangles: the signed sum of those tetrahedra. *)
Definition s_sum (ss : list solid) : solid := λ f i,
  ∃ l, Forall2 (λ s i, s f i) ss l ∧ i = foldr Rplus 0 l.
Definition s_mesh (ts : list (v3 * v3 * v3)) : solid :=
  s_sum ((λ t, s_tet t.1.1 t.1.2 t.2) <$> ts).

Definition is_volume (s : solid) (v : R) : Prop := s (λ _, 1) v.
(** Mean position. *)
Definition is_centroid (s : solid) (v : R) (c : v3) : Prop :=
  is_volume s v ∧ s vx (v * vx c) ∧ s vy (v * vy c) ∧ s vz (v * vz c).
(** The moment of inertia about an axis through the origin of direction [u] is
    the integral of density times squared distance to the axis; a tensor [i]
    gives all of them. *)
Definition is_inertia (s : solid) (mass : R) (i : mat) : Prop :=
  mtrans i = i ∧ ∃ v, is_volume s v ∧ v ≠ 0 ∧
  ∀ u, s (λ p, mass / v * lsq (cross3 u p)) (dot3 u (mvec i u)).

(** A solid turned by [q] and then moved by [p]; such a motion keeps volumes, so
    integrating over the moved solid is integrating the moved function. *)
Definition s_moved (q : quat) (p : v3) (s : solid) : solid := λ f i, s (λ x, f (p + rotate q x)%V) i.
(** A solid with a part taken away. *)
Definition s_minus (s t : solid) : solid := λ f i, ∃ j k, s f j ∧ t f k ∧ i = j - k.

(** A polygon mesh is closed if every edge is met once in each direction: the
    directed edges of the faces are, up to order, the reversed ones. *)
Fixpoint path_edges {A} (l : list A) : list (A * A) :=
  match l with a :: ((b :: _) as l') => (a, b) :: path_edges l' | _ => nil end.
Definition cycle_edges {A} (l : list A) : list (A * A) :=
  match l with nil => nil | a :: _ => path_edges (l ++ a :: nil) end.
Definition closed_polys (ps : list (list v3)) : Prop :=
  (ps ≫= cycle_edges) ≡ₚ (λ e, (e.2, e.1)) <$> (ps ≫= cycle_edges).
(** The triangles of a polygon, all meeting at its first vertex. *)
Definition polygon_tris (p : list v3) : list (v3 * v3 * v3) :=
  match p with nil => nil | v0 :: p => (λ e, (v0, e.1, e.2)) <$> path_edges p end.
(** A table of faces, each a first position in [idx] and a number of vertices,
    describes a list of polygons. *)
Inductive describes (verts : list v3) (idx : list nat) : list nat → list (list v3) → Prop :=
| d_nil : describes verts idx nil nil
| d_cons first p fs ps :
    (∀ j v, p !! j = Some v → ∃ i, idx !! (first + j)%nat = Some i ∧ verts !! i = Some v) →
    describes verts idx fs ps →
    describes verts idx (first :: length p :: fs) (p :: ps).

(** The tensor with its products of inertia negated. *)
Definition flip_off (m : mat) : mat :=
  Mat (V3 (vx (r0 m)) (- vy (r0 m)) (- vz (r0 m)))
      (V3 (- vx (r1 m)) (vy (r1 m)) (- vz (r1 m)))
      (V3 (- vx (r2 m)) (- vy (r2 m)) (vz (r2 m))).

(** The solids of the shapes and of the nodes of a compound. *)
Definition prim_solid (p : prim) : solid :=
  match p with
  | PBox h => s_box h
  | PSphere r => s_sphere r
  | PCylinder r hl a => s_cylinder a r hl
  | PCapsule r hl a => s_capsule a r hl
  | PPoly m => λ _ _, False
  end.
(** Boxes, spheres and cylinders of positive size. *)
Definition plain (p : prim) : Prop :=
  match p with
  | PBox h => 0 < vx h ∧ 0 < vy h ∧ 0 < vz h
  | PSphere r => 0 < r
  | PCylinder r hl _ => 0 < r ∧ 0 < hl
  | _ => False
  end.
Definition node_solid (n : node) : solid := s_moved (n_orn n) (n_pos n) (prim_solid (n_shape n)).

(** What can happen to a body between its creation and its removal. *)
Inductive com_op := CApply (com : v3) | CSetOrigin (o : v3) | CMove (pos : v3) (orn : quat) (lin ang : v3).
(** The velocity of the material point that is at [x]. *)
Definition velocity_at (b : body) (x : v3) : v3 := (b_lin b + cross3 (b_ang b) (x - b_pos b))%V.
