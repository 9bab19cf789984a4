(** Contact points of pairs of shapes: src/edyn/collision/collide/.

    Simplification: scalars are the real numbers (see GeoModel.v).  A function
    returns the points it passes to collision_result::add_point or
    maybe_add_point, in order, starting from an empty result; which of them
    maybe_add_point keeps is the subject of PointModel.v.  The features of a
    point are left out, except for the choice of the vertices of boxes and of
    cylinders. *)
From Verif Require Import Outcome BoxModel GeoModel NearModel RayModel SupModel.
From Coq Require Import Reals.
Local Open Scope R_scope.

(** contact_normal_attachment.hpp *)
Inductive attachment := ANone | AOnA | AOnB.
(** collision_result.hpp:13-20 *)
Record cpoint := CP { p_a : v3; p_b : v3; p_normal : v3; p_dist : R; p_attach : attachment }.
(** collide.hpp:24-31, without the boxes *)
Record cctx := CC { c_posA : v3; c_ornA : quat; c_posB : v3; c_ornB : quat; c_thr : R }.

(** collide_sphere_sphere.cpp:5-27 *)
Definition sphere_sphere (ra rb : R) (c : cctx) : list cpoint :=
  let d := sub3 (c_posA c) (c_posB c) in
  let dist_sqr := lsq d in
  let r := ra + rb + c_thr c in
  if rltb (r * r) dist_sqr then []
  else
    let dist := sqrt dist_sqr in
    let dn := if rltb eps dist then div3 d dist else ex in
    let rA := rotate (qconj (c_ornA c)) (scl ra (neg3 dn)) in
    let rB := rotate (qconj (c_ornB c)) (scl rb dn) in
    [CP rA rB dn (dist - ra - rb) ANone].

(** collide_sphere_plane.cpp:5-20 *)
Definition sphere_plane (r : R) (n : v3) (k : R) (c : cctx) : list cpoint :=
  let center := scl k n in
  let d := sub3 (c_posA c) center in
  let l := dot3 n d in
  if rltb r l then []
  else
    let pa := rotate (qconj (c_ornA c)) (scl r (neg3 n)) in
    let pb := rotate (qconj (c_ornB c)) (sub3 (sub3 d (scl l n)) center) in
    [CP pa pb n (l - r) AOnB].

(** collide_sphere_box.cpp:7-54 *)
Definition sphere_box (r : R) (h : v3) (c : cctx) : res (list cpoint) :=
  let cb := qconj (c_ornB c) in
  let p := rotate cb (sub3 (c_posA c) (c_posB c)) in
  let q := qmul cb (c_ornA c) in
  let closest := closest_point_box_outside h p in
  let nb := sub3 p closest in
  let d2 := lsq nb in
  let min_dist := r + c_thr c in
  if rltb (min_dist * min_dist) d2 then Ok []
  else
    '(cd, closest, nb, at_) ←
      (if rleb d2 eps then
         '(d, cl, n) ← closest_point_box_inside h p;
         Ok (- d, cl, n, AOnB)
       else
         let cd := sqrt d2 in
         let nb := div3 nb cd in
         Ok (cd, closest, nb,
             if rltb (1 - eps) (Rabs (vx nb)) || rltb (1 - eps) (Rabs (vy nb)) || rltb (1 - eps) (Rabs (vz nb))
             then AOnB else ANone));
    let pa_in_b := sub3 p (scl r nb) in
    let pa := to_object pa_in_b p q in
    Ok [CP pa closest (rotate (c_ornB c) nb) (cd - r) at_].

(** capsule_shape.hpp:23-29 *)
Definition capsule_vertex (hl : R) (a : axis) (pos : v3) (orn : quat) (i : bool) : v3 :=
  if i then sub3 pos (scl hl (axis_vec_q a orn)) else add3 pos (scl hl (axis_vec_q a orn)).

(** collide_capsule_plane.cpp:6-38 *)
Definition capsule_plane (r hl : R) (a : axis) (n : v3) (k : R) (c : cctx) : list cpoint :=
  let center := scl k n in
  flat_map (λ i,
    let v := capsule_vertex hl a (c_posA c) (c_ornA c) i in
    let distance := dot3 (sub3 v center) n - r in
    if rltb (c_thr c) distance then []
    else
      let paw := sub3 v (scl r n) in
      [CP (to_object paw (c_posA c) (c_ornA c)) (project_plane v center n) n distance AOnB]) [false; true].

(** collide_capsule_sphere.cpp:9-51 *)
Definition capsule_sphere (ra hl : R) (a : axis) (rb : R) (c : cctx) : res (list cpoint) :=
  let v0 := capsule_vertex hl a (c_posA c) (c_ornA c) false in
  let v1 := capsule_vertex hl a (c_posA c) (c_ornA c) true in
  '(dist_sqr, t, closest) ← closest_point_segment v0 v1 (c_posB c);
  let min_dist := ra + rb + c_thr c in
  if rltb (min_dist * min_dist) dist_sqr then Ok []
  else
    let normal := sub3 closest (c_posB c) in
    let l2 := lsq normal in
    let '(normal, distance) :=
      if rltb eps l2 then let l := sqrt l2 in (div3 normal l, l - ra - rb)
      else (axis_vec_q AZ (c_ornA c), - (ra + rb)) in
    let nb := rotate (qconj (c_ornB c)) normal in
    let paw := sub3 closest (scl ra normal) in
    Ok [CP (to_object paw (c_posA c) (c_ornA c)) (scl rb nb) normal distance ANone].

(** collide_capsule_capsule.cpp:7-80.  [num_points] is not initialised by the
    caller; where closest_point_segment_segment does not write it, it is UB. *)
Definition capsule_capsule (ra hla : R) (aa : axis) (rb hlb : R) (ab : axis) (c : cctx) : res (list cpoint) :=
  let va0 := capsule_vertex hla aa (c_posA c) (c_ornA c) false in
  let va1 := capsule_vertex hla aa (c_posA c) (c_ornA c) true in
  let vb0 := capsule_vertex hlb ab (c_posB c) (c_ornB c) false in
  let vb1 := capsule_vertex hlb ab (c_posB c) (c_ornB c) true in
  let s := closest_point_segment_segment true va0 va1 vb0 vb1 in
  let min_dist := ra + rb + c_thr c in
  if rltb (min_dist * min_dist) (ss_dist s) then Ok []
  else
    let '(normal, distance) :=
      if rltb eps (ss_dist s) then
        let dist := sqrt (ss_dist s) in
        (div3 (sub3 (ss_c1 s) (ss_c2 s)) dist, dist - ra - rb)
      else
        let x := cross3 (sub3 va1 va0) (sub3 vb1 vb0) in
        let x := if rltb (dot3 (sub3 (c_posA c) (c_posB c)) x) 0 then scl (-1) x else x in
        (default ey (try_normalize x), - (ra + rb)) in
    let point ca cb :=
      CP (to_object (sub3 ca (scl ra normal)) (c_posA c) (c_ornA c))
         (to_object (add3 cb (scl rb normal)) (c_posB c) (c_ornB c)) normal distance ANone in
    n ← opt_res (ss_num s);
    Ok (point (ss_c1 s) (ss_c2 s) ::
        match ss_second s with Some (_, _, c1, c2) => [point c1 c2] | None => [] end).

(** * Boxes: src/edyn/shapes/box_shape.cpp, box_shape.hpp *)
(** box_shape.hpp:24-46 *)
Definition box_edges : list (nat * nat) :=
  [(0, 1); (1, 2); (2, 3); (3, 0); (4, 5); (5, 6); (6, 7); (7, 4); (0, 4); (1, 7); (2, 6); (3, 5)]%nat.
Definition box_faces : list (list nat) :=
  [[0; 1; 2; 3]; [4; 5; 6; 7]; [0; 3; 5; 4]; [1; 7; 6; 2]; [0; 4; 7; 1]; [3; 2; 6; 5]]%nat.
(** box_shape.cpp:115-128 *)
Definition box_signs : list v3 :=
  [V3 1 1 1; V3 1 (-1) 1; V3 1 (-1) (-1); V3 1 1 (-1); V3 (-1) 1 1; V3 (-1) 1 (-1); V3 (-1) (-1) (-1); V3 (-1) (-1) 1].
Definition box_vertex (h : v3) (i : nat) : res v3 :=
  match box_signs !! i with Some m => Ok (mul3 h m) | None => AssertFail end.
(** box_shape.cpp:253-267 *)
Definition box_edge_index (i j : nat) : res nat :=
  match list_find (λ e, e = (i, j) ∨ e = (j, i)) box_edges with Some (k, _) => Ok k | None => AssertFail end.
(** vector3.hpp:298-317: max_index_abs; box_shape.cpp:269-277 *)
Definition max_index_abs (d : v3) : axis :=
  if rltb (Rabs (vx d)) (Rabs (vy d))
  then (if rltb (Rabs (vy d)) (Rabs (vz d)) then AZ else AY)
  else (if rltb (Rabs (vx d)) (Rabs (vz d)) then AZ else AX).
Definition box_support_face (d : v3) : nat :=
  let a := max_index_abs d in
  (match a with AX => 0 | AY => 2 | AZ => 4 end + if rltb (el a d) 0 then 1 else 0)%nat.

Inductive box_feature := BVertex (i : nat) | BEdge (i : nat) | BFace (i : nat).
(** box_shape.cpp:37-91, for the projections of the four corners of a face: the
    greatest one and the places of the corners of the feature, [None] for the
    whole face.  If no projection is above the initial value then [indices[0]]
    is not written. *)
Definition support_pick (projs : list R) (threshold : R) : res (R * option (list nat)) :=
  let '(projection, imax) :=
    foldl (λ '(p, im) '(i, q), if rltb p q then (q, Some i) else (p, im)) (- scalar_max, None) (imap pair projs) in
  im ← opt_res imax;
  let pr i := default 0 (projs !! i) in
  let indices := im :: List.filter (λ i, negb (i =? im)%nat && rltb (projection - threshold) (pr i)) [0; 1; 2; 3]%nat in
  Ok (projection,
      match indices with
      | [i] => Some [i]
      | [i; j] => Some [i; j]
      | [i; j; k] =>
          Some (if rleb (pr i) (pr j) && rleb (pr i) (pr k) then [j; k]
                else if rleb (pr j) (pr i) && rleb (pr j) (pr k) then [i; k]
                else [i; j])
      | _ => None
      end).
(** box_shape.cpp:29-98: the feature and its projection *)
Definition box_support_feature (h d : v3) (threshold : R) : res (box_feature * R) :=
  let face := box_support_face d in
  vis ← opt_res (box_faces !! face);
  projs ← foldr (λ vi r, v ← box_vertex h vi; l ← r; Ok (dot3 v d :: l)) (Ok []) vis;
  '(projection, pick) ← support_pick projs threshold;
  match pick with
  | None => Ok (BFace face, projection)
  | Some l =>
      ids ← foldr (λ i r, v ← opt_res (vis !! i); l ← r; Ok (v :: l)) (Ok []) l;
      match ids with
      | [i] => Ok (BVertex i, projection)
      | [i; j] => e ← box_edge_index i j; Ok (BEdge e, projection)
      | _ => UB
      end
  end.
(** box_shape.cpp:136-142, 150-158 *)
Definition box_feature_vertices (h : v3) (f : box_feature) : res (list v3) :=
  match f with
  | BVertex i => v ← box_vertex h i; Ok [v]
  | BEdge i =>
      match box_edges !! i with
      | Some (j, k) => v ← box_vertex h j; w ← box_vertex h k; Ok [v; w]
      | None => AssertFail
      end
  | BFace i =>
      match box_faces !! i with
      | Some l => foldr (λ vi r, v ← box_vertex h vi; l ← r; Ok (v :: l)) (Ok []) l
      | None => AssertFail
      end
  end.
(** constants.hpp:56 *)
Definition support_tolerance : R := 5 / 1000.
(** collide_box_plane.cpp:7-56 *)
Definition box_plane (h n : v3) (k : R) (c : cctx) : res (list cpoint) :=
  let center := scl k n in
  '(f, projection) ← box_support_feature h (rotate (qconj (c_ornA c)) (neg3 n)) support_tolerance;
  let projection := projection + dot3 (sub3 (c_posA c) center) (neg3 n) in
  if rltb (c_thr c) (- projection) then Ok []
  else
    vs ← box_feature_vertices h f;
    Ok (map (λ v,
      let paw := to_world v (c_posA c) (c_ornA c) in
      let pbw := project_plane paw center n in
      CP v (to_object pbw (c_posB c) (c_ornB c)) n (dot3 (sub3 paw pbw) n) AOnB) vs).

(** * Cylinders: collide_cylinder_sphere.cpp:7-86 *)
Definition cylinder_sphere (ra hl : R) (a : axis) (rb : R) (c : cctx) : res (list cpoint) :=
  let axis_ := axis_vec_q a (c_ornA c) in
  let v0 := add3 (c_posA c) (scl hl axis_) in
  let v1 := sub3 (c_posA c) (scl hl axis_) in
  let v := sub3 v1 v0 in
  let w := sub3 (c_posB c) v0 in
  let denom := dot3 v v in
  _ ← assert_ (rltb eps denom);
  let t := dot3 w v / denom in
  if rltb 0 t && rltb t 1 then
    let p := add3 v0 (scl t v) in
    let dir := sub3 p (c_posB c) in
    let d2 := lsq dir in
    let min_dist := ra + rb + c_thr c in
    if rltb (min_dist * min_dist) d2 then Ok []
    else
      let dist := sqrt d2 in
      let n := if rltb eps d2 then div3 dir dist else ey in
      Ok [CP (rotate (qconj (c_ornA c)) (sub3 (sub3 p (scl ra n)) (c_posA c)))
             (rotate (qconj (c_ornB c)) (scl rb n)) n (dist - ra - rb) ANone]
  else
    let disc := if rltb t (1 / 2) then v0 else v1 in
    '(d2, closest) ← closest_point_disc disc (c_ornA c) ra a (c_posB c);
    let min_dist := rb + c_thr c in
    if rltb (min_dist * min_dist) d2 then Ok []
    else
      let n := sub3 closest (c_posB c) in
      let l2 := lsq n in
      let l := sqrt l2 in
      let n := if rltb eps l2 then div3 n l else scl (if rltb (1 / 2) t then 1 else -1) axis_ in
      let proj := project_plane (c_posB c) (c_posA c) axis_ in
      Ok [CP (rotate (qconj (c_ornA c)) (sub3 closest (c_posA c)))
             (rotate (qconj (c_ornB c)) (scl rb n)) n (l - rb)
             (if rltb (lsq (sub3 proj (c_posA c))) (ra * ra) then AOnA else ANone)].

(** cylinder_shape.cpp:14-56 *)
Inductive cyl_feature := CFace (first : bool) | CSide | CCap (first : bool).
Definition cylinder_support_feature (r hl : R) (a : axis) (d : v3) (threshold : R) : cyl_feature :=
  let d0 := el (next a) d in
  let d1 := el (next (next a)) d in
  if rltb (4 * r * r * (d0 * d0 + d1 * d1)) (threshold * threshold) then CFace (rltb 0 (el a d))
  else if rltb (Rabs (2 * hl * el a d)) threshold then CSide
  else CCap (rltb 0 (el a d)).
(** collide_cylinder_plane.cpp:7-86 *)
Definition sign (b : bool) : R := if b then 1 else -1.
Definition cylinder_plane (r hl : R) (a : axis) (n : v3) (k : R) (c : cctx) : res (list cpoint) :=
  let center := scl k n in
  let pa := - cylinder_projection r hl a (c_posA c) (c_ornA c) (neg3 n) in
  if rltb (c_thr c) (pa - k) then Ok []
  else
    let point v paw :=
      let pb := project_plane paw center n in CP v pb n (dot3 (sub3 paw pb) n) AOnB in
    let axis_ := axis_vec_q a (c_ornA c) in
    let edge cap :=
      dir ← normalize3 (project_direction (neg3 n) axis_);
      let paw := add3 cap (scl r dir) in
      Ok (point (to_object paw (c_posA c) (c_ornA c)) paw) in
    match cylinder_support_feature r hl a (rotate (qconj (c_ornA c)) (neg3 n)) support_tolerance with
    | CFace f =>
        Ok (map (λ '(m0, m1),
          let v := with_el a (hl * sign f) (r * m0) (r * m1) in
          point v (to_world v (c_posA c) (c_ornA c))) [(0, 1); (1, 0); (0, -1); (-1, 0)])
    | CCap f =>
        p ← edge (add3 (c_posA c) (scl (sign f) (scl hl axis_)));
        Ok [p]
    | CSide =>
        p ← edge (sub3 (c_posA c) (scl hl axis_));
        q ← edge (add3 (c_posA c) (scl hl axis_));
        Ok [p; q]
    end.

(** * Compounds *)
(** constants.hpp:21 *)
Definition breaking : R := 2 / 100.
(** geom.cpp:762-770 *)
Definition boxes_meet (b c : box) : bool :=
  rleb (vx (bmin b)) (vx (bmax c)) && rleb (vx (bmin c)) (vx (bmax b)) &&
  (rleb (vy (bmin b)) (vy (bmax c)) && rleb (vy (bmin c)) (vy (bmax b))) &&
  (rleb (vz (bmin b)) (vz (bmax c)) && rleb (vz (bmin c)) (vz (bmax b))).
(** aabb.hpp:13-18 *)
Definition inset_box (b : box) (k : R) : box := Box (add3 (bmin b) (V3 k k k)) (sub3 (bmax b) (V3 k k k)).

(** A pair of shapes is collided by [collide], the shape of A being given.  The
    parts for which [visited] holds are collided in turn, each at its own place
    (collide_compound_plane.cpp:19-39, collide.hpp:290-313). *)
Definition collide_part (collide : sshape → cctx → res (list cpoint)) (c : cctx) (n : snode) : res (list cpoint) :=
  l ← collide (sn_shape n)
        (CC (to_world (sn_pos n) (c_posA c) (c_ornA c)) (qmul (c_ornA c) (sn_orn n)) (c_posB c) (c_ornB c) (c_thr c));
  Ok (map (λ p, CP (to_world (p_a p) (sn_pos n) (sn_orn n)) (p_b p) (p_normal p) (p_dist p) (p_attach p)) l).
Definition collide_parts (visited : snode → bool) (collide : sshape → cctx → res (list cpoint)) (nodes : list snode)
    (c : cctx) : res (list cpoint) :=
  foldr (λ n r, if visited n then l ← collide_part collide c n; l' ← r; Ok (l ++ l') else r) (Ok []) nodes.
(** collide_compound_plane.cpp:7-42: the inset box of the part in the world meets that of B *)
Definition compound_plane (collide : sshape → cctx → res (list cpoint)) (nodes : list snode) (boxB : box) (c : cctx) :=
  collide_parts (λ n, boxes_meet (inset_box (aabb_to_world (node_aabb n) (c_posA c) (c_ornA c)) (- breaking)) boxB)
    collide nodes c.
(** collide.hpp:282-314: the box of the part meets that of B in the space of A.
    Simplification: the parts are visited in their order in the list instead of
    that of the tree (which leaves are visited is C10). *)
Definition compound_other (collide : sshape → cctx → res (list cpoint)) (nodes : list snode) (boxB : box) (c : cctx) :=
  collide_parts (λ n, boxes_meet (node_aabb n) (aabb_to_object boxB (c_posA c) (c_ornA c))) collide nodes c.
(** collide_compound_compound.cpp:15-43, after the choice of the one with fewer
    parts: every part of B at its place against all of A.  The box of B is that
    of the whole compound. *)
Definition compound_compound (collide : sshape → sshape → cctx → res (list cpoint)) (nodesA nodesB : list snode)
    (boxB : box) (c : cctx) : res (list cpoint) :=
  foldr (λ n r,
    l ← compound_other (λ sA c, collide sA (sn_shape n) c) nodesA boxB
          (CC (c_posA c) (c_ornA c) (to_world (sn_pos n) (c_posB c) (c_ornB c)) (qmul (c_ornB c) (sn_orn n)) (c_thr c));
    l' ← r;
    Ok (map (λ p, CP (p_a p) (to_world (p_b p) (sn_pos n) (sn_orn n)) (p_normal p) (p_dist p) (p_attach p)) l ++ l'))
    (Ok []) nodesB.
