(** Volumes, centroids, moments of inertia and the centre of mass:
    src/edyn/math/shape_volume.cpp, src/edyn/dynamics/moment_of_inertia.cpp,
    src/edyn/util/shape_util.cpp:351-393 and the centre of mass functions of
    src/edyn/util/rigidbody.cpp.

    Simplification: scalars are the real numbers (see GeoModel.v); dividing by
    zero gives the arbitrary real x / 0 instead of an infinity or NaN. *)
From Verif Require Import Outcome BoxModel GeoModel.
From Coq Require Import Reals.
Local Open Scope R_scope.

(** * Simple solids *)
(** shape_volume.cpp:10-12 *)
Definition cylinder_volume (radius length : R) : R := PI * radius * radius * length.
(** shape_volume.cpp:14-16 *)
Definition sphere_volume (radius : R) : R := PI * radius * radius * radius * 4 / 3.
(** shape_volume.cpp:18-20 *)
Definition box_volume (extents : v3) : R := vx extents * vy extents * vz extents.

(** moment_of_inertia.cpp:11-17 *)
Definition inertia_solid_box (mass : R) (e : v3) : v3 :=
  scl (1 / 12 * mass) (V3 (vy e * vy e + vz e * vz e) (vz e * vz e + vx e * vx e) (vx e * vx e + vy e * vy e)).
(** moment_of_inertia.cpp:19-21.  scalar(0.4) is 2/5. *)
Definition inertia_solid_sphere (mass radius : R) : R := 2 / 5 * mass * radius * radius.
(** moment_of_inertia.cpp:23-25 *)
Definition inertia_hollow_sphere (mass radius : R) : R := 2 / 3 * mass * radius * radius.
(** The switch over the axis, moment_of_inertia.cpp:34-41, 54-61, 81-88 *)
Definition by_axis (a : axis) (xx yy_zz : R) : v3 :=
  match a with AX => V3 xx yy_zz yy_zz | AY => V3 yy_zz xx yy_zz | AZ => V3 yy_zz yy_zz xx end.
(** moment_of_inertia.cpp:27-44 *)
Definition inertia_solid_cylinder (mass len radius : R) (a : axis) : v3 :=
  by_axis a (1 / 2 * mass * radius * radius) (1 / 12 * mass * (3 * radius * radius + len * len)).
(** moment_of_inertia.cpp:46-64 *)
Definition inertia_hollow_cylinder (mass len inner outer : R) (a : axis) : v3 :=
  let rr := inner * inner + outer * outer in
  by_axis a (1 / 2 * mass * rr) (1 / 12 * mass * (3 * rr + len * len)).
(** moment_of_inertia.cpp:66-91 *)
Definition inertia_solid_capsule (mass len radius : R) (a : axis) : v3 :=
  let cyl_vol := cylinder_volume radius len in
  let sph_vol := sphere_volume radius in
  let total_vol := cyl_vol + sph_vol in
  let cyl_mass := mass * cyl_vol / total_vol in
  let sph_mass := mass * sph_vol / total_vol in
  let cyl_inertia := inertia_solid_cylinder cyl_mass len radius a in
  let sph_inertia := inertia_solid_sphere sph_mass radius in
  let xx := sph_inertia + vx cyl_inertia in
  let yy_zz := sph_inertia + sph_mass * ((4 * len + 3 * radius) * (4 * len + 3 * radius)) / 64 + vy cyl_inertia in
  by_axis a xx yy_zz.

(** * Convex meshes *)
(** convex_mesh.hpp: vertices, vertex indices of all faces one after the other,
    and for each face its first index and number of indices *)
Record mesh := Mesh { m_verts : list v3; m_idx : list nat; m_faces : list nat }.
Definition tri : Type := v3 * v3 * v3.

(** indices[i], then vertices[...]; out of range is undefined *)
Definition vert (m : mesh) (i : nat) : res v3 :=
  i ← opt_res (m_idx m !! i); opt_res (m_verts m !! i).
(** The fan of one face, shape_volume.cpp:30-47: triangles (v0, v_j, v_j+1) for
    j from 1 to count - 2.  Simplification: the triangles are collected first
    and summed afterwards, in the same order. *)
Fixpoint fan (m : mesh) (first : nat) (v0 : v3) (j n : nat) : res (list tri) :=
  match n with
  | O => Ok []
  | S n =>
    v1 ← vert m (first + j);
    v2 ← vert m (first + j + 1);
    ts ← fan m first v0 (S j) n;
    Ok ((v0, v1, v2) :: ts)
  end.
(** faces[i*2], faces[i*2+1] in turn; an odd size fails the assertion *)
Fixpoint face_fans (m : mesh) (fs : list nat) : res (list tri) :=
  match fs with
  | [] => Ok []
  | [_] => AssertFail
  | first :: count :: fs =>
    _ ← assert_ (Nat.leb 3 count);
    v0 ← vert m first;
    ts ← fan m first v0 1 (count - 2);
    us ← face_fans m fs;
    Ok (ts ++ us)
  end.
Definition mesh_tris (m : mesh) : res (list tri) := face_fans m (m_faces m).

Definition sumR {A} (f : A → R) (l : list A) : R := foldr (λ a s, f a + s) 0 l.
Definition sumV {A} (f : A → v3) (l : list A) : v3 := foldr (λ a s, add3 (f a) s) vec0 l.

(** shape_volume.cpp:42-44 *)
Definition tri_normal (t : tri) : v3 := let '(a, b, c) := t in cross3 (sub3 b a) (sub3 c b).
Definition tet6 (t : tri) : R := dot3 t.1.1 (tri_normal t).
(** shape_volume.cpp:22-55 *)
Definition mesh_volume (m : mesh) : res R := ts ← mesh_tris m; Ok (sumR tet6 ts / 6).

(** shape_util.cpp:381-385 *)
Definition centroid_term (t : tri) : v3 :=
  let '(a, b, c) := t in
  let wx := lsq (V3 (vx a + vx b) (vx b + vx c) (vx c + vx a)) in
  let wy := lsq (V3 (vy a + vy b) (vy b + vy c) (vy c + vy a)) in
  let wz := lsq (V3 (vz a + vz b) (vz b + vz c) (vz c + vz a)) in
  mul3 (tri_normal t) (V3 wx wy wz).
(** shape_util.cpp:351-393.  vector3 division by a scalar multiplies with the
    inverse (vector3.hpp:135-141). *)
Definition mesh_centroid (m : mesh) : res v3 :=
  ts ← mesh_tris m;
  let volume := sumR tet6 ts / 6 in
  Ok (scl (1 / (24 * 2 * volume)) (sumV centroid_term ts)).
(** convex_mesh.cpp:24-30 *)
Definition shift_to_centroid (m : mesh) : res mesh :=
  c ← mesh_centroid m;
  Ok (Mesh ((λ v, sub3 v c) <$> m_verts m) (m_idx m) (m_faces m)).

(** moment_of_inertia.cpp:122-139: the six sums *)
Definition quad_term (f g : v3 → R) (t : tri) : R :=
  let '(a, b, c) := t in
  let s := add3 (add3 a b) c in
  triple3 a b c * (f a * g a + f b * g b + f c * g c + f s * g s).
(** moment_of_inertia.cpp:93-156 *)
Definition inertia_polyhedron (mass : R) (m : mesh) : res mat :=
  ts ← mesh_tris m;
  let volume := sumR (λ t, triple3 t.1.1 t.1.2 t.2) ts in
  let xx := sumR (quad_term vx vx) ts in
  let yy := sumR (quad_term vy vy) ts in
  let zz := sumR (quad_term vz vz) ts in
  let yz := sumR (quad_term vy vz) ts in
  let zx := sumR (quad_term vz vx) ts in
  let xy := sumR (quad_term vx vy) ts in
  let density := mass / (volume / 6) in
  let r := density / 120 in
  Ok (Mat (V3 ((yy + zz) * r) (xy * r) (zx * r))
          (V3 (xy * r) ((zz + xx) * r) (yz * r))
          (V3 (zx * r) (yz * r) ((xx + yy) * r))).

(** shape_util.cpp:12-38 *)
Definition box_mesh (h : v3) : mesh :=
  let '(V3 x y z) := h in
  Mesh [V3 (-x) (-y) (-z); V3 x (-y) (-z); V3 x (-y) z; V3 (-x) (-y) z;
        V3 (-x) y (-z); V3 x y (-z); V3 x y z; V3 (-x) y z]
       [0; 1; 2; 3; 7; 6; 5; 4; 4; 5; 1; 0; 6; 7; 3; 2; 7; 4; 0; 3; 5; 6; 2; 1]%nat
       [0; 4; 4; 4; 8; 4; 12; 4; 16; 4; 20; 4]%nat.

(** * Shapes *)
(** The shapes of dynamic bodies (shapes.hpp); planes and triangle meshes have
    no volume and are left out. *)
Inductive prim :=
| PBox (half : v3) | PSphere (r : R) | PCylinder (r hl : R) (a : axis)
| PCapsule (r hl : R) (a : axis) | PPoly (m : mesh).

(** shape_volume.cpp:57-86 *)
Definition prim_volume (p : prim) : res R :=
  match p with
  | PBox h => Ok (box_volume (scl 2 h))
  | PSphere r => Ok (sphere_volume r)
  | PCylinder r hl _ => Ok (cylinder_volume r (hl * 2))
  | PCapsule r hl _ => Ok (cylinder_volume r (hl * 2) + sphere_volume r)
  | PPoly m => mesh_volume m
  end.
(** moment_of_inertia.cpp:162-186 *)
Definition prim_inertia (p : prim) (mass : R) : res mat :=
  match p with
  | PBox h => Ok (mdiag (inertia_solid_box mass (scl 2 h)))
  | PSphere r => Ok (mscale (inertia_solid_sphere mass r) mid)
  | PCylinder r hl a => Ok (mdiag (inertia_solid_cylinder mass (hl * 2) r a))
  | PCapsule r hl a => Ok (mdiag (inertia_solid_capsule mass (hl * 2) r a))
  | PPoly m => inertia_polyhedron mass m
  end.

(** moment_of_inertia.cpp:221-224 *)
Definition shift_inertia (i : mat) (mass : R) (offset : v3) : mat :=
  let d := skew offset in madd i (mscale mass (mmul (mtrans d) d)).

(** compound_shape.hpp: a node is a shape with a position and an orientation *)
Record node := Node { n_shape : prim; n_pos : v3; n_orn : quat }.
(** shape_volume.cpp:65-75 *)
Fixpoint compound_volume (ns : list node) : res R :=
  match ns with
  | [] => Ok 0
  | n :: ns => v ← prim_volume (n_shape n); w ← compound_volume ns; Ok (v + w)
  end.
(** moment_of_inertia.cpp:194-203: one turn of the loop *)
Definition node_inertia (mass total : R) (n : node) : res mat :=
  vol ← prim_volume (n_shape n);
  let m := mass * (vol / total) in
  let orn := to_matrix (n_orn n) in
  i ← prim_inertia (n_shape n) m;
  Ok (shift_inertia (mmul (mmul orn i) (mtrans orn)) m (n_pos n)).
(** moment_of_inertia.cpp:188-206 *)
Fixpoint sum_inertia (mass total : R) (ns : list node) : res mat :=
  match ns with
  | [] => Ok mat0
  | n :: ns => i ← node_inertia mass total n; j ← sum_inertia mass total ns; Ok (madd i j)
  end.
Definition compound_inertia (ns : list node) (mass : R) : res mat :=
  total ← compound_volume ns; sum_inertia mass total ns.

(** * Inertia in world space *)
(** rigidbody.cpp:71-77 and update_inertias.cpp: basis * I_inv * transpose(basis) *)
Definition world_inertia_inv (orn : quat) (i_inv : mat) : mat :=
  let basis := to_matrix orn in mmul (mmul basis i_inv) (mtrans basis).

(** * Centre of mass *)
(** position, orientation, linear and angular velocity, and the components
    center_of_mass and origin *)
Record body := Body { b_pos : v3; b_orn : quat; b_lin : v3; b_ang : v3; b_com : option v3; b_origin : option v3 }.

(** rigidbody.cpp:517-548.  Static bodies have no velocity components, for them
    the call is undefined; they are left out.  Giving an entity a component it
    has already (registry.emplace, line 542) is undefined too. *)
Definition apply_com (b : body) (com : v3) : res body :=
  let com_old := default vec0 (b_com b) in
  let origin := to_world (neg3 com_old) (b_pos b) (b_orn b) in
  let com_world := to_world com origin (b_orn b) in
  let lin := add3 (b_lin b) (cross3 (b_ang b) (sub3 com_world (b_pos b))) in
  if reqb (vx com) 0 && reqb (vy com) 0 && reqb (vz com) 0 then
    match b_com b with
    | None => Ok (Body com_world (b_orn b) lin (b_ang b) None (b_origin b))
    | Some _ => Ok (Body com_world (b_orn b) lin (b_ang b) None None)
    end
  else
    match b_com b, b_origin b with
    | None, Some _ => UB
    | _, _ => Ok (Body com_world (b_orn b) lin (b_ang b) (Some com) (Some origin))
    end.
(** make_rigidbody, rigidbody.cpp:47-49, 80-87: the components of the centre of
    mass; [left] is the origin component the entity has already, if any *)
Definition make_body (pos : v3) (orn : quat) (lin ang : v3) (com : option v3) (left : option v3) : res body :=
  let b := Body pos orn lin ang None left in
  match com with None => Ok b | Some c => apply_com b c end.
(** clear_rigidbody, rigidbody.cpp:194-226: of these components it removes all
    but the origin *)
Definition clear_body (b : body) : option v3 := b_origin b.
(** Where collision detection and raycasts take a body to be: its origin
    component if it has one, collision_util.cpp:38-39, 455-461, raycast.cpp:32-34 *)
Definition collision_origin (b : body) : v3 := default (b_pos b) (b_origin b).
(** rigidbody.cpp:372-380 *)
Definition body_origin (b : body) : v3 :=
  match b_com b with None => b_pos b | Some com => to_world (neg3 com) (b_pos b) (b_orn b) end.
(** rigidbody.cpp:382-391 *)
Definition set_origin (b : body) (o : v3) : body :=
  match b_com b with
  | None => Body o (b_orn b) (b_lin b) (b_ang b) (b_com b) (b_origin b)
  | Some com => Body (to_world com o (b_orn b)) (b_orn b) (b_lin b) (b_ang b) (b_com b) (Some o)
  end.
(** The simulation moved the body, then update_origins, update_origins.cpp:13-20 *)
Definition move_body (b : body) (pos : v3) (orn : quat) (lin ang : v3) : body :=
  Body pos orn lin ang (b_com b)
    (match b_com b, b_origin b with
     | Some com, Some _ => Some (to_world (neg3 com) pos orn)
     | _, o => o end).
(** rigidbody.cpp:403-407, called for bodies with a centre of mass *)
Definition update_origin (b : body) : res body :=
  com ← opt_res (b_com b);
  Ok (Body (b_pos b) (b_orn b) (b_lin b) (b_ang b) (b_com b) (Some (to_world (neg3 com) (b_pos b) (b_orn b)))).
