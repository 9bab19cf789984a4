(** Segments, rectangles, polygons and convex hulls of the plane:
    src/edyn/math/geom.cpp and src/edyn/util/shape_util.cpp.

    Simplification: scalars are real numbers (see GeoModel.v).  Output
    parameters are returned; those the code leaves unset are not returned.  A
    division by zero is the outcome [UB] (the code computes an infinity or a
    NaN), as is an index out of range. *)
From Verif Require Import Outcome BoxModel GeoModel NearModel.
From Coq Require Import Reals.
Local Open Scope R_scope.

Definition neg2 (v : v2) : v2 := V2 (- ux v) (- uy v).
(** math.hpp: lerp *)
Definition lerp2 (a b : v2) (t : R) : v2 := add2 (scl2 (1 - t) a) (scl2 t b).
(** Outside of a counter-clockwise polygon with this edge: -orthogonal(edge) *)
Definition outward (e : v2) : v2 := neg2 (orth2 e).

(** geom.cpp:804-844: the pairs (s, t) of parameters that are counted *)
Definition intersect_segments (p0 p1 q0 q1 : v2) : res (list (R * R)) :=
  let dp := sub2 p1 p0 in
  let dq := sub2 q1 q0 in
  let e := sub2 q0 p0 in
  let denom := perp2 dp dq in
  if rltb eps (Rabs denom) then
    let denom_inv := 1 / denom in
    let s0 := perp2 e dq * denom_inv in
    let t0 := perp2 e dp * denom_inv in
    Ok (if rltb s0 0 || rltb 1 s0 || rltb t0 0 || rltb 1 t0 then [] else [(s0, t0)])
  else if rltb (Rabs (perp2 e dp)) eps then
    denom_p ← rdiv 1 (dot2 dp dp);
    denom_q ← rdiv 1 (dot2 dq dq);
    let s0 := dot2 (sub2 q0 p0) dp * denom_p in
    let s1 := dot2 (sub2 q1 p0) dp * denom_p in
    if (rltb s0 0 && rltb s1 0) || (rltb 1 s0 && rltb 1 s1) then Ok []
    else
      let s0 := clamp_unit s0 in
      let s1 := clamp_unit s1 in
      let t0 := clamp_unit (dot2 (sub2 p0 q0) dq * denom_q) in
      let t1 := clamp_unit (dot2 (sub2 p1 q0) dq * denom_q) in
      Ok (if rltb (Rabs (s1 - s0)) eps then [(s0, t0)] else [(s0, t0); (s1, t1)])
  else Ok [].

(** One edge of the rectangle, geom.cpp:1083-1094, 1102-1113, 1121-1132: another
    parameter [t] is counted unless it is the first one again *)
Definition add_param (hit : bool) (t : R) (l : list R) : list R :=
  if hit then
    match l with
    | [] => [t]
    | s0 :: _ => if rltb eps (Rabs (t - s0)) then l ++ [t] else l
    end
  else l.
(** geom.cpp:1044-1137: the counted parameters *)
Definition intersect_line_aabb (p0 p1 mn mx : v2) : res (list R) :=
  let d := sub2 p1 p0 in
  let e := sub2 mn p0 in
  let f := sub2 mx p0 in
  if rltb (Rabs (ux d)) eps then
    if rleb (ux e) 0 && rleb 0 (ux f) then
      s0 ← rdiv (uy e) (uy d);
      s1 ← rdiv (uy f) (uy d);
      Ok [s0; s1]
    else Ok []
  else if rltb (Rabs (uy d)) eps then
    if rleb (uy e) 0 && rleb 0 (uy f) then
      s0 ← rdiv (ux e) (ux d);
      s1 ← rdiv (ux f) (ux d);
      Ok [s0; s1]
    else Ok []
  else
    (* left edge *)
    let t := ux e / ux d in
    let qy := uy p0 + uy d * t in
    let l := if rleb (uy mn) qy && rltb qy (uy mx) then [t] else [] in
    (* right edge *)
    let t := ux f / ux d in
    let qy := uy p0 + uy d * t in
    let l := add_param (rltb (uy mn) qy && rleb qy (uy mx)) t l in
    if (length l =? 2)%nat then Ok l else
    (* bottom edge *)
    let t := uy e / uy d in
    let qx := ux p0 + ux d * t in
    let l := add_param (rleb (ux mn) qx && rltb qx (ux mx)) t l in
    if (length l =? 2)%nat then Ok l else
    (* top edge *)
    let t := uy f / uy d in
    let qx := ux p0 + ux d * t in
    Ok (add_param (rltb (ux mn) qx && rleb qx (ux mx)) t l).

(** shape_util.cpp:212-220: an edge has the point outside *)
Definition beyond (v0 v1 p : v2) : bool := rltb 0 (dot2 (sub2 p v0) (outward (sub2 v1 v0))).
Fixpoint inside_loop (vs : list v2) (p : v2) : bool :=
  match vs with
  | v0 :: ((v1 :: _) as vs') => if beyond v0 v1 p then false else inside_loop vs' p
  | _ => true
  end.
(** shape_util.cpp:207-223 *)
Definition point_inside_convex_polygon (vs : list v2) (p : v2) : res bool :=
  _ ← assert_ (2 <? length vs)%nat;
  Ok (inside_loop vs p).

(** shape_util.cpp:225-229 *)
Definition is_triangle_ccw (v0 v1 v2 : v2) : bool :=
  rltb 0 (dot2 (sub2 v2 v0) (orth2 (sub2 v1 v0))).

(** An element of a vector *)
Definition at_ {A} (l : list A) (i : nat) : res A := opt_res (l !! i).
(** shape_util.cpp:244-287: the loop from index [i] on, [n] iterations left *)
Fixpoint closest_loop (vs : list v2) (ix : list nat) (p : v2) (i n : nat) : res (option v2) :=
  match n with
  | O => Ok None
  | S n =>
    let j := ((i + 1) mod length ix)%nat in
    i0 ← at_ ix i;
    i1 ← at_ ix j;
    v0 ← at_ vs i0;
    v1 ← at_ vs i1;
    let e0 := sub2 v1 v0 in
    let n0 := outward e0 in
    if rltb (dot2 (sub2 p v0) n0) 0 then closest_loop vs ix p (S i) n
    else if rltb 0 (dot2 (sub2 p v0) e0) then
      if rltb (dot2 (sub2 p v1) e0) 0 then
        t ← rdiv (dot2 (sub2 p v0) e0) (dot2 e0 e0);
        Ok (Some (lerp2 v0 v1 t))
      else
        i2 ← at_ ix ((i + 2) mod length ix)%nat;
        v2' ← at_ vs i2;
        let e1 := sub2 v2' v1 in
        if rltb (dot2 (sub2 p v1) e1) 0 then Ok (Some v1)
        else closest_loop vs ix p (S i) n
    else closest_loop vs ix p (S i) n
  end.
(** shape_util.cpp:240-290: None when it returns false *)
Definition closest_point_convex_polygon (vs : list v2) (ix : list nat) (p : v2) : res (option v2) :=
  closest_loop vs ix p 0 (length ix).

(** * Convex hulls *)

(** shape_util.cpp:102-113: the first point with the greatest projection; the
    search starts from -EDYN_SCALAR_MAX and index 0 *)
Fixpoint scan_max (f : v2 → R) (ps : list v2) (i : nat) (best : R) (idx : nat) : nat :=
  match ps with
  | [] => idx
  | p :: ps => if rltb best (f p) then scan_max f ps (S i) (f p) i else scan_max f ps (S i) best idx
  end.
Definition farthest (points : list v2) (dir : v2) : nat :=
  scan_max (λ p, dot2 p dir) points 0 (- scalar_max) 0.
(** std::vector::insert *)
Definition insert_at {A} (l : list A) (i : nat) (x : A) : list A := take i l ++ x :: drop i l.
(** shape_util.cpp:92-127: the new hull and the number of splits.  The recursion
    has fuel. *)
Fixpoint split_hull_edge (fuel : nat) (points : list v2) (hull : list nat) (i0 i1 : nat) (tolerance : R)
    : res (list nat * nat) :=
  match fuel with
  | O => NoFuel
  | S fuel =>
    h0 ← at_ hull i0;
    h1 ← at_ hull i1;
    v0 ← at_ points h0;
    v1 ← at_ points h1;
    let dir := outward (sub2 v1 v0) in
    let idx := farthest points dir in
    p ← at_ points idx;
    if rltb tolerance (dot2 (sub2 p v0) dir) then
      let hull := insert_at hull i1 idx in
      r1 ← split_hull_edge fuel points hull i0 i1 tolerance;
      let i1 := (i1 + r1.2)%nat in
      r2 ← split_hull_edge fuel points r1.1 i1 (i1 + 1)%nat tolerance;
      Ok (r2.1, (1 + (r1.2 + r2.2))%nat)
    else Ok (hull, O)
  end.

(** shape_util.cpp:151-163, 170-181: index of the first least and of the first
    greatest value, starting from the extreme scalars and the given index *)
Definition first_max (f : v2 → R) (ps : list v2) (idx : nat) : nat := scan_max f ps 0 (- scalar_max) idx.
Definition first_min (f : v2 → R) (ps : list v2) (idx : nat) : nat := scan_max (λ p, - f p) ps 0 (- scalar_max) idx.
(** Value at the found index, or the initial extreme (the code keeps the whole
    point; only the coordinate that was compared is read) *)
Definition greatest (f : v2 → R) (ps : list v2) : R := foldl (λ m p, if rltb m (f p) then f p else m) (- scalar_max) ps.
(** shape_util.cpp:129-205 *)
Definition calculate_convex_hull (fuel : nat) (points : list v2) (tolerance : R) : res (list nat) :=
  match points with
  | [] | [_] => Ok [0%nat]
  | [_; _] => Ok [0%nat; 1%nat]
  | [a; b; c] => Ok (if is_triangle_ccw a b c then [0; 1; 2]%nat else [2; 1; 0]%nat)
  | _ =>
    let imin := first_min ux points 0 in
    let imax := first_max ux points 0 in
    if rltb (greatest ux points - - greatest (λ p, - ux p) points) tolerance then
      Ok [first_max uy points imax; first_min uy points imin]
    else
      let hull := [imax; imin; imax] in
      r1 ← split_hull_edge fuel points hull 0 1 tolerance;
      let i1 := (1 + r1.2)%nat in
      r2 ← split_hull_edge fuel points r1.1 i1 (i1 + 1)%nat tolerance;
      Ok (removelast r2.1)
  end.
