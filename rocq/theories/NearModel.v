(** Closest points and intersections: src/edyn/math/geom.cpp.

    Simplification: scalars are real numbers (see GeoModel.v).  Output
    parameters are returned as tuples; a division whose divisor is zero has no
    value and is the outcome [UB] (the code computes an infinity or a NaN). *)
From Verif Require Import Outcome BoxModel GeoModel.
From Coq Require Import Reals.
Local Open Scope R_scope.

(** A division of scalars *)
Definition rdiv (a b : R) : res R := if Req_EM_T b 0 then UB else Ok (a / b).

(** * Points, lines and segments *)

(** geom.cpp:12-23: squared distance, parameter and closest point *)
Definition closest_point_segment (q0 q1 p : v3) : res (R * R * v3) :=
  let v := sub3 q1 q0 in
  let w := sub3 p q0 in
  let a := dot3 w v in
  let b := dot3 v v in
  _ ← assert_ (rltb eps b);
  let t := clamp_unit (a / b) in
  let q := add3 q0 (scl t v) in
  Ok (lsq (sub3 p q), t, q).

(** geom.cpp:25-34 *)
Definition distance_sqr_line (q0 dir p : v3) : res R :=
  let w := sub3 p q0 in
  let a := dot3 w dir in
  let b := dot3 dir dir in
  _ ← assert_ (rltb eps b);
  let t := a / b in
  let q := add3 q0 (scl t dir) in
  Ok (lsq (sub3 p q)).

(** geom.cpp:36-45 *)
Definition closest_point_line (q0 dir p : v3) : res (R * R * v3) :=
  let w := sub3 p q0 in
  let a := dot3 w dir in
  let b := dot3 dir dir in
  _ ← assert_ (rltb eps b);
  let t := a / b in
  let r := add3 q0 (scl t dir) in
  Ok (lsq (sub3 p r), t, r).

(** geom.cpp:47-71: None if the lines are considered parallel *)
Definition closest_point_line_line (p1 q1 p2 q2 : v3) : option (R * R) :=
  let d1 := sub3 q1 p1 in
  let d2 := sub3 q2 p2 in
  let r := sub3 p1 p2 in
  let a := dot3 d1 d1 in
  let b := dot3 d1 d2 in
  let c := dot3 d1 r in
  let e := dot3 d2 d2 in
  let f := dot3 d2 r in
  let d := a * e - b * b in
  if Rlt_dec eps d then
    let d_inv := 1 / d in
    Some ((b * f - c * e) * d_inv, (a * f - b * c) * d_inv)
  else None.

(** What closest_point_segment_segment writes.  [ss_second] is the pair
    ([sp], [tp]) with the points [c1p], [c2p], present if two pairs were
    counted; [ss_num] is the value written to [num_points], None if it is left
    as it was. *)
Record ss_result := SS {
  ss_dist : R; ss_s : R; ss_t : R; ss_c1 : v3; ss_c2 : v3;
  ss_num : option nat;
  ss_second : option (R * R * v3 * v3) }.

(** geom.cpp:73-170.  [two] tells whether the caller passes [num_points] and
    the outputs of the second pair. *)
Definition closest_point_segment_segment (two : bool) (p1 q1 p2 q2 : v3) : ss_result :=
  let d1 := sub3 q1 p1 in
  let d2 := sub3 q2 p2 in
  let r := sub3 p1 p2 in
  let a := dot3 d1 d1 in
  let e := dot3 d2 d2 in
  let f := dot3 d2 r in
  let finish s t num second :=
    let c1 := add3 p1 (scl s d1) in
    let c2 := add3 p2 (scl t d2) in
    SS (lsq (sub3 c1 c2)) s t c1 c2 num second in
  if rleb a eps && rleb e eps then SS (lsq (sub3 p1 p2)) 0 0 p1 p2 None None
  else if rleb a eps then finish 0 (clamp_unit (f / e)) None None
  else
    let c := dot3 d1 r in
    if rleb e eps then finish (clamp_unit (- c / a)) 0 None None
    else
      let b := dot3 d1 d2 in
      let denom := a * e - b * b in
      (* lines 107-141: the first value of s, and what is written besides *)
      let '(s0, num, second) :=
        if Rlt_dec eps denom then
          (clamp_unit ((b * f - c * e) / denom), if two then Some 1%nat else None, None)
        else if two then
          let r1 := sub3 p1 q2 in
          let f1 := dot3 d1 r1 in
          let a_inv := 1 / a in
          let s := clamp_unit (Rmin (- c * a_inv) (- f1 * a_inv)) in
          let sp := clamp_unit (Rmax (- c * a_inv) (- f1 * a_inv)) in
          let r2 := sub3 p2 q1 in
          let f2 := dot3 d2 r2 in
          let e_inv := 1 / e in
          let tp := clamp_unit (Rmax (- f * e_inv) (- f2 * e_inv)) in
          if rltb eps (Rabs (s - sp)) then
            (s, Some 2%nat, Some (sp, tp, add3 p1 (scl sp d1), add3 p2 (scl tp d2)))
          else (s, Some 1%nat, None)
        else (0, None, None) in
      let tnom := b * s0 + f in
      if rltb tnom 0 then finish (clamp_unit (- c / a)) 0 num second
      else if rltb e tnom then finish (clamp_unit ((b - c) / a)) 1 num second
      else finish s0 (tnom / e) num second.

(** geom.cpp:172-192: squared distance and closest point *)
Definition closest_point_disc (dpos : v3) (dorn : quat) (radius : R) (a : axis) (p : v3) : res (R * v3) :=
  let normal := axis_vec_q a dorn in
  let ln := dot3 (sub3 p dpos) normal in
  let p_proj := sub3 p (scl ln normal) in
  let d := sub3 p_proj dpos in
  let l2 := lsq d in
  if rltb l2 (radius * radius) then Ok (ln * ln, p_proj)
  else
    let l := sqrt l2 in
    if Req_EM_T l 0 then UB
    else
      let q := add3 dpos (scl radius (div3 d l)) in
      Ok (lsq (sub3 p q), q).

(** geom.cpp:987-996 *)
Definition closest_point_box_outside (h p : v3) : v3 :=
  V3 (Rmax (- vx h) (Rmin (vx h) (vx p)))
     (Rmax (- vy h) (Rmin (vy h) (vy p)))
     (Rmax (- vz h) (Rmin (vz h) (vz p))).

(** geom.cpp:998-1042: the returned scalar, the closest point and the normal.
    One step replaces the running minimum if the new distance is smaller. *)
Definition bi_step (dist : R) (cl nr : v3) (acc : R * v3 * v3) : R * v3 * v3 :=
  if rltb dist (fst (fst acc)) then (dist, cl, nr) else acc.
Definition closest_point_box_inside (h p : v3) : res (R * v3 * v3) :=
  _ ← assert_ (rleb (- vx h) (vx p) && rleb (- vy h) (vy p) && rleb (- vz h) (vz p) &&
               (rleb (vx p) (vx h) && rleb (vy p) (vy h) && rleb (vz p) (vz h)));
  let acc := (vx h - vx p, V3 (vx h) (vy p) (vz p), V3 1 0 0) in
  let acc := bi_step (vx h + vx p) (V3 (- vx h) (vy p) (vz p)) (V3 (-1) 0 0) acc in
  let acc := bi_step (vy h - vy p) (V3 (vx p) (vy h) (vz p)) (V3 0 1 0) acc in
  let acc := bi_step (vy h + vy p) (V3 (vx p) (- vy h) (vz p)) (V3 0 (-1) 0) acc in
  let acc := bi_step (vz h - vz p) (V3 (vx p) (vy p) (vz h)) (V3 0 0 1) acc in
  let dist := vz h + vz p in
  let acc := bi_step dist (V3 (vx p) (vy p) (- vz h)) (V3 0 0 (-1)) acc in
  (* line 1041 returns the last value of [dist], not [min_dist] *)
  Ok (dist, snd (fst acc), snd acc).

(** * Two dimensions: vector2.hpp *)
Record v2 := V2 { ux : R; uy : R }.
Definition add2 (v w : v2) : v2 := V2 (ux v + ux w) (uy v + uy w).
Definition sub2 (v w : v2) : v2 := V2 (ux v - ux w) (uy v - uy w).
Definition scl2 (s : R) (v : v2) : v2 := V2 (s * ux v) (s * uy v).
Definition dot2 (v w : v2) : R := ux v * ux w + uy v * uy w.
(** vector2.hpp: orthogonal, perp_product *)
Definition orth2 (v : v2) : v2 := V2 (- uy v) (ux v).
Definition perp2 (v w : v2) : R := ux v * uy w - uy v * ux w.
Definition lsq2 (v : v2) : R := dot2 v v.

(** geom.cpp:194-216: the parameters of the counted intersections of the line
    through [p0] and [p1] with the circle of the given radius around the origin *)
Definition intersect_line_circle (p0 p1 : v2) (radius : R) : res (list R) :=
  let d := sub2 p1 p0 in
  let dl2 := lsq2 d in
  let dp := dot2 d p0 in
  let delta := dp * dp - dl2 * (dot2 p0 p0 - radius * radius) in
  if rltb delta 0 then Ok []
  else if rltb eps delta then
    let delta_sqrt := sqrt delta in
    dl2_inv ← rdiv 1 dl2;
    Ok [- (dp + delta_sqrt) * dl2_inv; - (dp - delta_sqrt) * dl2_inv]
  else Ok [- dp * dl2].

(** geom.cpp:441-475: the count and the two result points *)
Definition intersect_circle_circle (posA : v2) (ra : R) (posB : v2) (rb : R) : res (nat * v2 * v2) :=
  let u := sub2 posB posA in
  let lu2 := lsq2 u in
  let rsum := ra + rb in
  let rsub := ra - rb in
  if rltb lu2 eps && rltb rsub eps then
    Ok (2%nat, add2 posA (V2 ra 0), sub2 posB (V2 rb 0))
  else if rltb lu2 (rsub * rsub) || rltb (rsum * rsum) lu2 then Ok (0%nat, V2 0 0, V2 0 0)
  else
    lu2_inv ← rdiv 1 lu2;
    let s := ((ra * ra - rb * rb) * lu2_inv + 1) * / 2 in
    let t := sqrt (Rmax 0 (ra * ra * lu2_inv - s * s)) in
    let v := orth2 u in
    let su := scl2 s u in
    let tv := scl2 t v in
    Ok (if rltb eps t then 2%nat else 1%nat, add2 (add2 posA su) tv, sub2 (add2 posA su) tv).
