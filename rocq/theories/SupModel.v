(** Support points and bounding boxes of shapes: src/edyn/util/shape_util.cpp,
    include/edyn/util/shape_util.hpp, src/edyn/util/aabb_util.cpp,
    src/edyn/math/triangle.cpp, src/edyn/math/geom.cpp (support_point_circle) and
    src/edyn/sys/update_aabbs.cpp.

    Simplification: scalars are the real numbers (see GeoModel.v). *)
From Verif Require Import Outcome BoxModel GeoModel RayModel.
From Coq Require Import Reals.
Local Open Scope R_scope.

(** shape_util.cpp:40-46 *)
Definition support_point_box (h d : v3) : v3 :=
  V3 (if rltb 0 (vx d) then vx h else - vx h)
     (if rltb 0 (vy d) then vy h else - vy h)
     (if rltb 0 (vz d) then vz h else - vz h).

(** shape_util.hpp:94-110, triangle.cpp:82-97 (three points) *)
Definition cloud_point (ps : list v3) (d : v3) : v3 :=
  snd (foldl (λ '(m, s) p, if rltb m (dot3 p d) then (dot3 p d, p) else (m, s)) (- scalar_max, vec0) ps).
(** shape_util.hpp:139-150, triangle.cpp:99-112 *)
Definition cloud_projection (ps : list v3) (d : v3) : R :=
  foldl (λ m p, Rmax (dot3 p d) m) (- scalar_max) ps.

(** shape_util.cpp:48-82.  One vertex is given by its neighbours in
    [neighbor_indices] between two entries of [neighbors_start]; reading outside
    of an array is UB.  The loop gets fuel. *)
Definition neighbors (ns ni : list nat) (i : nat) : res (list nat) :=
  a ← opt_res (ns !! i);
  b ← opt_res (ns !! S i);
  foldr (λ k r, l ← r; j ← opt_res (ni !! k); Ok (j :: l)) (Ok []) (seq a (b - a)).
Fixpoint climb_scan (vs : list v3) (d : v3) (l : list nat) (st : nat * R * bool) : res (nat * R * bool) :=
  match l with
  | [] => Ok st
  | j :: l =>
      v ← opt_res (vs !! j);
      let '(i, m, stop) := st in
      climb_scan vs d l (if rltb m (dot3 v d) then (j, dot3 v d, false) else (i, m, stop))
  end.
Fixpoint climb (fuel : nat) (vs : list v3) (ns ni : list nat) (d : v3) (i : nat) (m : R) : res R :=
  match fuel with
  | O => NoFuel
  | S fuel =>
      l ← neighbors ns ni i;
      '(i, m, stop) ← climb_scan vs d l (i, m, true);
      if (stop : bool) then Ok m else climb fuel vs ns ni d i m
  end.
Definition polyhedron_projection (vs : list v3) (ns ni : list nat) (d : v3) : res R :=
  v ← opt_res (vs !! O);
  _ ← assert_ (bool_decide (length ns = S (length vs)));
  climb (S (length vs)) vs ns ni d 0 (dot3 v d).

(** shape_util.cpp:297-305 *)
Definition capsule_projection (v0 v1 : v3) (r : R) (d : v3) : R := Rmax (dot3 v0 d) (dot3 v1 d) + r.

(** The element of a vector along an axis and the next two, cyclically, and back *)
Definition el (a : axis) (v : v3) : R := match a with AX => vx v | AY => vy v | AZ => vz v end.
Definition next (a : axis) : axis := match a with AX => AY | AY => AZ | AZ => AX end.
Definition with_el (a : axis) (x y z : R) : v3 :=
  match a with AX => V3 x y z | AY => V3 z x y | AZ => V3 y z x end.
(** shape_util.cpp:307-330 *)
Definition cylinder_point (r hl : R) (a : axis) (d : v3) : v3 :=
  let d0 := el (next a) d in
  let d1 := el (next (next a)) d in
  let planar := d0 * d0 + d1 * d1 in
  let s := if rltb (el a d) 0 then - hl else hl in
  if rltb eps planar then
    let k := r / sqrt planar in with_el a s (d0 * k) (d1 * k)
  else with_el a s r 0.
(** shape_util.cpp:332-337 *)
Definition cylinder_point_q (r hl : R) (a : axis) (orn : quat) (d : v3) : v3 :=
  rotate orn (cylinder_point r hl a (rotate (qconj orn) d)).
(** shape_util.cpp:339-342 *)
Definition cylinder_point_at (r hl : R) (a : axis) (pos : v3) (orn : quat) (d : v3) : v3 :=
  add3 pos (cylinder_point_q r hl a orn d).
(** shape_util.cpp:344-349 *)
Definition cylinder_projection (r hl : R) (a : axis) (pos : v3) (orn : quat) (d : v3) : R :=
  let ld := rotate (qconj orn) d in
  dot3 pos d + dot3 (cylinder_point r hl a ld) ld.
(** geom.cpp:772-799 *)
Definition circle_point (pos : v3) (orn : quat) (r : R) (a : axis) (d : v3) : v3 :=
  let ld := rotate (qconj orn) d in
  let d0 := el (next a) ld in
  let d1 := el (next (next a)) ld in
  let l := d0 * d0 + d1 * d1 in
  let sup := if rltb eps l then let k := r / sqrt l in with_el a 0 (d0 * k) (d1 * k) else with_el a 0 r 0 in
  add3 pos (rotate orn sup).

(** triangle.cpp:34-80.  The feature and its index are the ones passed in until
    the first vertex is taken; [large_scalar] is 1e18 (constants.hpp:16). *)
Inductive tri_feature := FVertex | FEdge | FFace.
Definition large_scalar : R := 1000000000000000000.
Definition feature_step (pos dir : v3) (threshold : R) (st : tri_feature * nat * R) (iv : nat * v3) : tri_feature * nat * R :=
  let '(f, k, proj) := st in
  let '(i, v) := iv in
  let p := dot3 (sub3 v pos) dir in
  if bool_decide (0 < i)%nat && rltb (Rabs (p - proj)) threshold then
    match f with
    | FVertex => if bool_decide (i = 2%nat) then (FEdge, if bool_decide (k = 0%nat) then 2%nat else 1%nat, proj)
                 else (FEdge, 0%nat, Rmax p proj)
    | FEdge => (FFace, k, Rmax p proj)
    | FFace => (f, k, proj)
    end
  else if rltb proj p then (FVertex, i, p) else st.
Definition triangle_feature (v0 v1 v2 pos dir : v3) (threshold : R) (f : tri_feature) (k : nat) : tri_feature * nat * R :=
  foldl (feature_step pos dir threshold) (f, k, - large_scalar) [(0%nat, v0); (1%nat, v1); (2%nat, v2)].

(** * Bounding boxes *)
Notation box := (aabb R).
Definition v3_eqb (v w : v3) : bool := reqb (vx v) (vx w) && reqb (vy v) (vy w) && reqb (vz v) (vz w).

(** aabb_util.cpp:9-40 *)
Definition plane_aabb (n : v3) (k : R) : box :=
  let '(lo, hi) :=
    if v3_eqb n ex then (V3 (-1) (-1) (-1), V3 0 1 1)
    else if v3_eqb n (neg3 ex) then (V3 0 (-1) (-1), V3 1 1 1)
    else if v3_eqb n ey then (V3 (-1) (-1) (-1), V3 1 0 1)
    else if v3_eqb n (neg3 ey) then (V3 (-1) 0 (-1), V3 1 1 1)
    else if v3_eqb n ez then (V3 (-1) (-1) (-1), V3 1 1 0)
    else if v3_eqb n (neg3 ez) then (V3 (-1) (-1) 0, V3 1 1 1)
    else (V3 (-1) (-1) (-1), V3 1 1 1) in
  let p := scl k n in
  Box (add3 (scl 99999 lo) p) (add3 (scl 99999 hi) p).

(** aabb_util.cpp:42-63: one row of the matrix *)
Definition box_row (row h : v3) (c : R) : R * R :=
  let add e '(lo, hi) := let f := - e in if rltb e f then (lo + e, hi + f) else (lo + f, hi + e) in
  add (vz row * - vz h) (add (vy row * - vy h) (add (vx row * - vx h) (c, c))).
Definition box_aabb (h pos : v3) (orn : quat) : box :=
  let m := to_matrix orn in
  let x := box_row (r0 m) h (vx pos) in
  let y := box_row (r1 m) h (vy pos) in
  let z := box_row (r2 m) h (vz pos) in
  Box (V3 (fst x) (fst y) (fst z)) (V3 (snd x) (snd y) (snd z)).
(** aabb_util.cpp:65-70 *)
Definition sphere_aabb (r : R) (pos : v3) : box :=
  Box (V3 (vx pos - r) (vy pos - r) (vz pos - r)) (V3 (vx pos + r) (vy pos + r) (vz pos + r)).
(** aabb_util.cpp:72-79 *)
Definition cylinder_aabb (r hl : R) (a : axis) (pos : v3) (orn : quat) : box :=
  let v := V3 (vx (cylinder_point_q r hl a orn ex)) (vy (cylinder_point_q r hl a orn ey)) (vz (cylinder_point_q r hl a orn ez)) in
  Box (sub3 pos v) (add3 pos v).
(** aabb_util.cpp:81-88 *)
Definition capsule_aabb (r hl : R) (a : axis) (pos : v3) (orn : quat) : box :=
  let v := scl hl (axis_vec_q a orn) in
  let p0 := sub3 pos v in
  let p1 := add3 pos v in
  let o := V3 r r r in
  Box (sub3 (min3 p0 p1) o) (add3 (max3 p0 p1) o).
(** aabb_util.cpp:90-116 and 118-143; the axes of the target space seen from
    the space of the box *)
Definition turned_aabb (b : box) (center ax ay az : v3) : box :=
  let h := scl (1 / 2) (sub3 (bmax b) (bmin b)) in
  let e := V3 (dot3 (support_point_box h ax) ax) (dot3 (support_point_box h ay) ay) (dot3 (support_point_box h az) az) in
  Box (sub3 center e) (add3 center e).
Definition box_center (b : box) : v3 := scl (1 / 2) (add3 (bmin b) (bmax b)).
Definition aabb_to_world (b : box) (pos : v3) (orn : quat) : box :=
  let c := qconj orn in
  turned_aabb b (to_world (box_center b) pos orn) (rotate c ex) (rotate c ey) (rotate c ez).
Definition aabb_to_object (b : box) (pos : v3) (orn : quat) : box :=
  turned_aabb b (to_object (box_center b) pos orn) (rotate orn ex) (rotate orn ey) (rotate orn ez).

(** aabb_util.cpp:145-155; vector3_max is vector3.hpp:49 *)
Definition v3_max : v3 := V3 scalar_max scalar_max scalar_max.
Definition cloud_aabb (ps : list v3) : box :=
  foldl (λ b p, Box (min3 (bmin b) p) (max3 (bmax b) p)) (Box v3_max (neg3 v3_max)) ps.
(** aabb_util.cpp:157-169 *)
Definition cloud_aabb_at (ps : list v3) (pos : v3) (orn : quat) : box :=
  cloud_aabb ((λ p, to_world p pos orn) <$> ps).
(** aabb_util.cpp:188-193, 203-208: the box of a mesh is moved, not turned *)
Definition mesh_aabb (b : box) (pos : v3) (orn : quat) : box := Box (add3 (bmin b) pos) (add3 (bmax b) pos).
(** update_aabbs.cpp:22-30: from the vertices turned beforehand *)
Definition rotated_aabb (vs : list v3) (pos : v3) : box :=
  let b := cloud_aabb vs in Box (add3 (bmin b) pos) (add3 (bmax b) pos).

(** aabb.hpp:49-54 *)
Definition enclosing (b c : box) : box := Box (min3 (bmin b) (bmin c)) (max3 (bmax b) (bmax c)).

(** Shapes of the parts of a compound, with the vertices of a polyhedron *)
Inductive sshape :=
| SSphere (r : R)
| SBox (h : v3)
| SCylinder (r hl : R) (a : axis)
| SCapsule (r hl : R) (a : axis)
| SPolyhedron (vs : list v3).
(** aabb_util.cpp:176-201 *)
Definition part_aabb (s : sshape) (pos : v3) (orn : quat) : box :=
  match s with
  | SSphere r => sphere_aabb r pos
  | SBox h => box_aabb h pos orn
  | SCylinder r hl a => cylinder_aabb r hl a pos orn
  | SCapsule r hl a => capsule_aabb r hl a pos orn
  | SPolyhedron vs => cloud_aabb_at vs pos orn
  end.
(** compound_shape.hpp:26-34, compound_shape.cpp:8-20: nodes with their boxes *)
Record snode := SNode { sn_shape : sshape; sn_pos : v3; sn_orn : quat }.
Definition node_aabb (n : snode) : box := part_aabb (sn_shape n) (sn_pos n) (sn_orn n).
(** aabb_util.cpp:210-220; no first node is UB *)
Definition compound_aabb (nodes : list snode) (pos : v3) (orn : quat) : res box :=
  match nodes with
  | [] => UB
  | n :: ns => Ok (foldl (λ b n, enclosing b (aabb_to_world (node_aabb n) pos orn)) (aabb_to_world (node_aabb n) pos orn) ns)
  end.

(** update_aabbs.cpp:118-150: the box of an island from its nodes, each being
    procedural or not and with a box or not; without any the old box stays. *)
Definition island_aabb (old : box) (nodes : list (bool * option box)) : box :=
  fst (foldl (λ '(b, first) n,
    match n with
    | (true, Some c) => (if (first : bool) then c else enclosing b c, false)
    | _ => (b, first)
    end) (old, true) nodes).
