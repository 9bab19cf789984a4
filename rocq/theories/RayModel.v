(** Raycasts against shapes: src/edyn/collision/raycast.cpp and the ray
    intersections of src/edyn/math/geom.cpp.

    Simplifications: scalars are real numbers (see GeoModel.v); a division by
    zero has no value and is the outcome [UB], and so is the use of a scalar
    that was never assigned.  A result is [None] if the code returns the default
    result, whose fraction is EDYN_SCALAR_MAX; fractions of hits are below it.  The trees that select the parts
    of a compound and the triangles of a mesh are left out: every part is
    tried, in order. *)
From Verif Require Import Outcome BoxModel GeoModel NearModel.
From Coq Require Import Reals.
Local Open Scope R_scope.

(** raycast.hpp:33-98: which part of the shape was hit *)
Inductive feature :=
| FNone
| FBoxFace (i : nat)
| FCylinderFace (i : nat)
| FCylinderSide
| FHemisphere (i : nat)
| FCapsuleSide
| FPolyFace (i : nat)
| FTriangle (i : nat)
| FChild (i : nat) (f : feature).

(** raycast.hpp:104-121 *)
Record hit := Hit { h_frac : R; h_normal : v3; h_feature : feature }.

(** raycast.hpp:141-146 *)
Record ray_ctx := RCtx { rc_pos : v3; rc_orn : quat; rc_p0 : v3; rc_p1 : v3 }.

(** ** geom.cpp:1225-1344 *)
Inductive ray_cylinder :=
| RCParallel
| RCFar
| RCHit (fraction_in fraction_out dist_sqr : R) (normal : v3).

Definition cyl_vertices (pos : v3) (orn : quat) (half_length : R) (a : axis) : v3 * v3 :=
  let dir := axis_vec_q a orn in
  (add3 pos (scl half_length dir), sub3 pos (scl half_length dir)).

(** geom.cpp:1225-1274 *)
Definition intersect_ray_cylinder (p0 p1 pos : v3) (orn : quat) (radius half_length : R) (a : axis) : ray_cylinder :=
  let '(v0, v1) := cyl_vertices pos orn half_length a in
  match closest_point_line_line v0 v1 p0 p1 with
  | None => RCParallel
  | Some (s, t) =>
      let radius_sqr := radius * radius in
      let closest_cyl := lerp3 v0 v1 s in
      let closest_ray := lerp3 p0 p1 t in
      let normal := sub3 closest_ray closest_cyl in
      let dist_sqr := lsq normal in
      if rltb radius_sqr dist_sqr then RCFar
      else
        let d := sub3 p1 p0 in
        let e := sub3 v1 v0 in
        let dd := dot3 d d in
        let ee := dot3 e e in
        let de := dot3 d e in
        let delta_sqr := (radius_sqr - dist_sqr) * ee / (dd * ee - de * de) in
        let delta := sqrt delta_sqr in
        RCHit (t - delta) (t + delta) dist_sqr normal
  end.

(** geom.cpp:1276-1305 *)
Definition intersect_ray_sphere (p0 p1 pos : v3) (radius : R) : res (option R) :=
  let d := sub3 p1 p0 in
  let m := sub3 p0 pos in
  let a := dot3 d d in
  let b := dot3 m d in
  let c := dot3 m m - radius * radius in
  if rltb 0 c && rltb 0 b then Ok None
  else
    let discr := b * b - a * c in
    if rltb discr 0 then Ok None
    else
      t ← rdiv (- b - sqrt discr) a;
      Ok (Some (Rmax 0 t)).

(** geom.cpp:1307-1344 *)
Definition intersect_segment_triangle (p0 p1 v0 v1 v2 normal : v3) : option R :=
  let d := dot3 (sub3 p1 p0) normal in
  let e := dot3 (sub3 v0 p0) normal in
  let inside t :=
    if rltb t 0 || rltb 1 t then None
    else
      let x := lerp3 p0 p1 t in
      let edge a b := rltb (dot3 (cross3 normal (sub3 b a)) (sub3 x a)) 0 in
      if edge v0 v1 || edge v1 v2 || edge v2 v0 then None else Some t in
  if rltb eps (Rabs d) then inside (e / d)
  else if rltb eps (Rabs e) then None
  else inside 0.

(** * raycast.cpp *)

(** box_shape.cpp:185-196 *)
Definition box_face_normal (i : nat) : res v3 :=
  opt_res ([V3 1 0 0; V3 (-1) 0 0; V3 0 1 0; V3 0 (-1) 0; V3 0 0 1; V3 0 0 (-1)] !! i).

(** raycast.cpp:69-101: one coordinate.  The state is [t_min], [t_max] and
    [face_idx] (None for SIZE_MAX); None if the function returns without a hit. *)
Definition box_axis (i : nat) (p d h : R) (st : R * R * option nat) : option (R * R * option nat) :=
  let '(t_min, t_max, face) := st in
  if rltb (Rabs d) eps then
    if rltb h (Rabs p) then None else Some st
  else
    let d_inv := 1 / d in
    let t1 := (- h - p) * d_inv in
    let t2 := (h - p) * d_inv in
    let '(t1, t2) := if rltb t2 t1 then (t2, t1) else (t1, t2) in
    let face := if rltb t_min t1 then Some (i * 2 + (if rltb 0 p then 0 else 1))%nat else face in
    let t_min := Rmax t_min t1 in
    let t_max := Rmin t_max t2 in
    if rltb t_max t_min then None else Some (t_min, t_max, face).

(** raycast.cpp:58-109.  An index of SIZE_MAX fails the assertion of
    get_face_normal (box_shape.cpp:186). *)
Definition raycast_box (h : v3) (c : ray_ctx) : res (option hit) :=
  let p0 := to_object (rc_p0 c) (rc_pos c) (rc_orn c) in
  let p1 := to_object (rc_p1 c) (rc_pos c) (rc_orn c) in
  let dir := sub3 p1 p0 in
  match
    st ← box_axis 0 (vx p0) (vx dir) (vx h) (- scalar_max, scalar_max, None);
    st ← box_axis 1 (vy p0) (vy dir) (vy h) st;
    box_axis 2 (vz p0) (vz dir) (vz h) st
  with
  | None => Ok None
  | Some (t_min, _, face) =>
      match face with
      | None => AssertFail
      | Some i =>
          n ← box_face_normal i;
          Ok (Some (Hit t_min (rotate (rc_orn c) n) (FBoxFace i)))
      end
  end.

(** raycast.cpp:111-180 *)
Definition raycast_cylinder (radius half_length : R) (a : axis) (c : ray_ctx) : res (option hit) :=
  let r := intersect_ray_cylinder (rc_p0 c) (rc_p1 c) (rc_pos c) (rc_orn c) radius half_length a in
  match r with
  | RCFar => Ok None
  | _ =>
      let '(v0, v1) := cyl_vertices (rc_pos c) (rc_orn c) half_length a in
      let ray_dir := sub3 (rc_p1 c) (rc_p0 c) in
      let cyl_dir := sub3 v1 v0 in
      cyl_dir_norm ← normalize3 cyl_dir;
      let first := rltb (dot3 (sub3 (rc_p0 c) (rc_pos c)) cyl_dir) 0 in
      let face_idx := if first then 0%nat else 1%nat in
      let face_v := if first then v0 else v1 in
      let face_normal := scl (if first then -1 else 1) cyl_dir_norm in
      let radius_sqr := radius * radius in
      match r with
      | RCHit fraction_in _ dist_sqr normal =>
          let x := lerp3 (rc_p0 c) (rc_p1 c) fraction_in in
          if rltb 0 (dot3 (sub3 x v0) cyl_dir_norm) && rltb (dot3 (sub3 x v1) cyl_dir_norm) 0 then
            let l := sqrt dist_sqr in
            if Req_EM_T l 0 then UB
            else Ok (Some (Hit fraction_in (div3 normal l) FCylinderSide))
          else
            t ← rdiv (dot3 (sub3 face_v (rc_p0 c)) face_normal) (dot3 ray_dir face_normal);
            let x := lerp3 (rc_p0 c) (rc_p1 c) t in
            if rltb radius_sqr (dsq x face_v) then Ok None
            else Ok (Some (Hit t face_normal (FCylinderFace face_idx)))
      | _ =>
          '(dist_sqr, fraction, _) ← closest_point_line (rc_p0 c) ray_dir face_v;
          if rltb radius_sqr dist_sqr then Ok None
          else Ok (Some (Hit fraction face_normal (FCylinderFace face_idx)))
      end
  end.

(** raycast.cpp:182-195 *)
Definition raycast_sphere (radius : R) (c : ray_ctx) : res (option hit) :=
  o ← intersect_ray_sphere (rc_p0 c) (rc_p1 c) (rc_pos c) radius;
  match o with
  | None => Ok None
  | Some t =>
      let x := lerp3 (rc_p0 c) (rc_p1 c) t in
      n ← normalize3 (sub3 x (rc_pos c));
      Ok (Some (Hit t n FNone))
  end.

(** raycast.cpp:212-227: the hemisphere [i] around [v].  [u_in] is None if
    intersect_ray_cylinder did not assign it. *)
Definition raycast_hemisphere (radius : R) (c : ray_ctx) (u_in : option R) (i : nat) (v : v3) : res (option hit) :=
  o ← intersect_ray_sphere (rc_p0 c) (rc_p1 c) v radius;
  match o with
  | None => Ok None
  | Some fraction =>
      u ← opt_res u_in;
      let x := lerp3 (rc_p0 c) (rc_p1 c) u in
      n ← normalize3 (sub3 x (rc_pos c));
      Ok (Some (Hit fraction n (FHemisphere i)))
  end.

(** raycast.cpp:197-257 *)
Definition raycast_capsule (radius half_length : R) (a : axis) (c : ray_ctx) : res (option hit) :=
  let r := intersect_ray_cylinder (rc_p0 c) (rc_p1 c) (rc_pos c) (rc_orn c) radius half_length a in
  let '(v0, v1) := cyl_vertices (rc_pos c) (rc_orn c) half_length a in
  let cap_dir := sub3 v1 v0 in
  match r with
  | RCFar => Ok None
  | RCParallel =>
      if rltb (dot3 (sub3 (rc_p0 c) (rc_pos c)) cap_dir) 0
      then raycast_hemisphere radius c None 0 v0
      else raycast_hemisphere radius c None 1 v1
  | RCHit u_in _ dist_sqr normal =>
      let x := lerp3 (rc_p0 c) (rc_p1 c) u_in in
      if rltb 0 (dot3 (sub3 x v0) cap_dir) && rltb (dot3 (sub3 x v1) cap_dir) 0 then
        let l := sqrt dist_sqr in
        if Req_EM_T l 0 then UB
        else Ok (Some (Hit u_in (div3 normal l) FCapsuleSide))
      else if rltb (dot3 (sub3 x v0) cap_dir) 0
      then raycast_hemisphere radius c (Some u_in) 0 v0
      else raycast_hemisphere radius c (Some u_in) 1 v1
  end.

(** raycast.cpp:270-305: the faces are given by one of their vertices and
    their normal (mesh.vertices[mesh.first_vertex_index(i)], mesh.normals[i]);
    None if the function returns without a hit. *)
Fixpoint poly_faces (p0 d : v3) (i : nat) (faces : list (v3 * v3)) (st : R * R * option nat) : option (R * R * option nat) :=
  match faces with
  | [] => Some st
  | (v, n) :: faces =>
      let '(t0, t1, face) := st in
      let dist := dot3 (sub3 v p0) n in
      let denom := dot3 n d in
      if rltb (Rabs denom) eps then
        if rltb 0 dist then None else poly_faces p0 d (S i) faces st
      else
        let t := dist / denom in
        let '(t0, t1, face) :=
          if rltb denom 0 then (if rltb t0 t then (t, t1, Some i) else (t0, t1, face))
          else (if rltb t t1 then (t0, t, face) else (t0, t1, face)) in
        if rltb t1 t0 then None else poly_faces p0 d (S i) faces (t0, t1, face)
  end.

(** raycast.cpp:259-321 *)
Definition raycast_polyhedron (faces : list (v3 * v3)) (c : ray_ctx) : res (option hit) :=
  let p0 := to_object (rc_p0 c) (rc_pos c) (rc_orn c) in
  let p1 := to_object (rc_p1 c) (rc_pos c) (rc_orn c) in
  let d := sub3 p1 p0 in
  match poly_faces p0 d 0 faces (- scalar_max, scalar_max, None) with
  | None => Ok None
  | Some (t0, t1, face) =>
      if (rltb t0 0 && rltb t1 0) || (rltb 1 t0 && rltb 1 t1) then Ok None
      else
        match face with
        | None => AssertFail
        | Some i =>
            n ← opt_res (snd <$> faces !! i);
            Ok (Some (Hit (clamp_unit t0) (rotate (rc_orn c) n) (FPolyFace i)))
        end
  end.

(** raycast.cpp:356-378.  The position and orientation are not used. *)
Definition raycast_plane (normal : v3) (constant : R) (c : ray_ctx) : option hit :=
  let q := scl constant normal in
  let d := dot3 (sub3 (rc_p1 c) (rc_p0 c)) normal in
  let e := dot3 (sub3 q (rc_p0 c)) normal in
  if rltb (Rabs d) eps then
    if rltb (Rabs e) eps then Some (Hit 0 normal FNone) else None
  else Some (Hit (e / d) normal FNone).

(** Lines 42-45, 337, 395: a result replaces the current one if its fraction is
    smaller; initially there is none. *)
Definition closer (h : hit) (cur : option hit) : bool :=
  match cur with None => true | Some h' => rltb (h_frac h) (h_frac h') end.

(** raycast.cpp:380-401: triangles with their normals.  The position and
    orientation are not used. *)
Record tri := Tri { t_v0 : v3; t_v1 : v3; t_v2 : v3; t_normal : v3 }.
Definition mesh_step (c : ray_ctx) (it : nat * tri) (cur : option hit) : option hit :=
  let '(i, t) := it in
  match intersect_segment_triangle (rc_p0 c) (rc_p1 c) (t_v0 t) (t_v1 t) (t_v2 t) (t_normal t) with
  | None => cur
  | Some f =>
      let h := Hit f (t_normal t) (FTriangle i) in
      if closer h cur then Some h else cur
  end.
Definition raycast_mesh (ts : list tri) (c : ray_ctx) : option hit :=
  foldl (λ cur it, mesh_step c it cur) None (imap pair ts).

(** The shapes that can be parts of a compound (shapes.hpp) *)
Inductive rshape :=
| RSphere (radius : R)
| RBox (half : v3)
| RCylinder (radius half_length : R) (a : axis)
| RCapsule (radius half_length : R) (a : axis)
| RPolyhedron (faces : list (v3 * v3)).
Definition raycast_part (s : rshape) (c : ray_ctx) : res (option hit) :=
  match s with
  | RSphere r => raycast_sphere r c
  | RBox h => raycast_box h c
  | RCylinder r hl a => raycast_cylinder r hl a c
  | RCapsule r hl a => raycast_capsule r hl a c
  | RPolyhedron faces => raycast_polyhedron faces c
  end.

(** raycast.cpp:323-354 *)
Record rnode := RNode { rn_shape : rshape; rn_pos : v3; rn_orn : quat }.
Fixpoint raycast_nodes (orn : quat) (p0 p1 : v3) (i : nat) (nodes : list rnode) (cur : option hit) : res (option hit) :=
  match nodes with
  | [] => Ok cur
  | n :: nodes =>
      o ← raycast_part (rn_shape n) (RCtx (rn_pos n) (rn_orn n) p0 p1);
      let cur :=
        match o with
        | None => cur
        | Some h => if closer h cur then Some (Hit (h_frac h) (rotate orn (h_normal h)) (FChild i (h_feature h))) else cur
        end in
      raycast_nodes orn p0 p1 (S i) nodes cur
  end.
Definition raycast_compound (nodes : list rnode) (c : ray_ctx) : res (option hit) :=
  let p0 := to_object (rc_p0 c) (rc_pos c) (rc_orn c) in
  let p1 := to_object (rc_p1 c) (rc_pos c) (rc_orn c) in
  raycast_nodes (rc_orn c) p0 p1 0 nodes None.

(** raycast.cpp:20-56: the candidates are the bodies whose AABB the segment
    crosses and that are not to be ignored, in the order in which the broadphase
    reports them. *)
Inductive rbody := RPart (s : rshape) | RCompound (nodes : list rnode) | RPlane (n : v3) (k : R) | RMesh (ts : list tri).
Definition raycast_body (b : rbody) (c : ray_ctx) : res (option hit) :=
  match b with
  | RPart s => raycast_part s c
  | RCompound nodes => raycast_compound nodes c
  | RPlane n k => Ok (raycast_plane n k c)
  | RMesh ts => Ok (raycast_mesh ts c)
  end.
Record candidate := Cand { cd_ent : nat; cd_shape : rbody; cd_pos : v3; cd_orn : quat }.
Fixpoint raycast_bodies (p0 p1 : v3) (cs : list candidate) (cur : option (nat * hit)) : res (option (nat * hit)) :=
  match cs with
  | [] => Ok cur
  | cd :: cs =>
      o ← raycast_body (cd_shape cd) (RCtx (cd_pos cd) (cd_orn cd) p0 p1);
      let cur :=
        match o with
        | None => cur
        | Some h => if closer h (snd <$> cur) then Some (cd_ent cd, h) else cur
        end in
      raycast_bodies p0 p1 cs cur
  end.
