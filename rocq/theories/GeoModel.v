(** Vectors, quaternions, matrices and frames: include/edyn/math/vector3.hpp,
    vector2.hpp, quaternion.hpp, matrix3x3.hpp, transform.hpp, math.hpp,
    coordinate_axis.hpp and src/edyn/math/quaternion.cpp.

    Simplification: scalars are the real numbers, so there is no rounding, no
    overflow and no NaN.  The constant pi is the real number PI (constants.hpp:10). *)
From Verif Require Import Outcome BoxModel.
From Coq Require Import Reals.
Local Open Scope R_scope.

(** scalar.hpp:11-18: FLT_EPSILON.  Apart from concrete cases, the proofs only
    use that it is positive and small, so they also cover DBL_EPSILON. *)
Definition eps : R := / 8388608.
(** scalar.hpp:13-18: FLT_MAX *)
Definition scalar_max : R := 16777215 * 2 ^ 104.
(** constants.hpp:14 *)
Definition half_sqrt2 : R := 7071067811865475244008443621048490 / 10000000000000000000000000000000000.

(** * vector3.hpp *)
Notation v3 := (vec R).
Definition vec0 : v3 := V3 0 0 0.
Definition ex : v3 := V3 1 0 0.
Definition ey : v3 := V3 0 1 0.
Definition ez : v3 := V3 0 0 1.

(** vector3.hpp:67-69 *)
Definition add3 (v w : v3) : v3 := V3 (vx v + vx w) (vy v + vy w) (vz v + vz w).
(** vector3.hpp:80-82 *)
Definition sub3 (v w : v3) : v3 := V3 (vx v - vx w) (vy v - vy w) (vz v - vz w).
(** vector3.hpp:93-95 *)
Definition neg3 (v : v3) : v3 := V3 (- vx v) (- vy v) (- vz v).
(** vector3.hpp:98-100 *)
Definition mul3 (v w : v3) : v3 := V3 (vx v * vx w) (vy v * vy w) (vz v * vz w).
(** vector3.hpp:108-116 (scalar on either side: the products commute) *)
Definition scl (s : R) (v : v3) : v3 := V3 (s * vx v) (s * vy v) (s * vz v).
(** vector3.hpp:118-121 *)
Definition div3 (v : v3) (s : R) : v3 := V3 (vx v / s) (vy v / s) (vz v / s).

Declare Scope v3_scope.
Delimit Scope v3_scope with V.
Infix "+" := add3 : v3_scope.
Infix "-" := sub3 : v3_scope.
Notation "- v" := (neg3 v) : v3_scope.
Infix "*" := scl : v3_scope.
Infix "/" := div3 : v3_scope.

(** vector3.hpp:191-193 *)
Definition dot3 (v w : v3) : R := vx v * vx w + vy v * vy w + vz v * vz w.
(** vector3.hpp:196-200 *)
Definition cross3 (v w : v3) : v3 :=
  V3 (vy v * vz w - vz v * vy w) (vz v * vx w - vx v * vz w) (vx v * vy w - vy v * vx w).
(** vector3.hpp:204-208 *)
Definition triple3 (u v w : v3) : R := dot3 u (cross3 v w).
(** vector3.hpp:211-213 *)
Definition lsq (v : v3) : R := dot3 v v.
(** vector3.hpp:216-218 *)
Definition len (v : v3) : R := sqrt (lsq v).
(** vector3.hpp:221-228 *)
Definition dist (p q : v3) : R := len (sub3 p q).
Definition dsq (p q : v3) : R := lsq (sub3 p q).
(** vector3.hpp:231-235.  The literal 1e-18 is exact. *)
Definition tiny : R := / 1000000000000000000.
Definition rltb (a b : R) : bool := if Rlt_dec a b then true else false.
Definition rleb (a b : R) : bool := if Rle_dec a b then true else false.
Definition normalize3 (v : v3) : res v3 :=
  _ ← assert_ (rltb tiny (len v)); Ok (div3 v (len v)).
(** vector3.hpp:239-248: None if not normalized *)
Definition try_normalize (v : v3) : option v3 :=
  if Rlt_dec tiny (lsq v) then Some (scl (1 / sqrt (lsq v)) v) else None.
(** vector3.hpp:251-258 *)
Definition project_direction (v n : v3) : v3 := sub3 v (scl (dot3 v n) n).
Definition project_plane (p q n : v3) : v3 := sub3 p (scl (dot3 (sub3 p q) n) n).
(** vector3.hpp:261-268, std::min/std::max of reals *)
Definition min3 (v w : v3) : v3 := V3 (Rmin (vx v) (vx w)) (Rmin (vy v) (vy w)) (Rmin (vz v) (vz w)).
Definition max3 (v w : v3) : v3 := V3 (Rmax (vx v) (vx w)) (Rmax (vy v) (vy w)) (Rmax (vz v) (vz w)).

(** math.hpp:46-48, 69-71 *)
Definition clamp_unit (s : R) : R := if Rlt_dec s 0 then 0 else if Rlt_dec 1 s then 1 else s.
Definition lerp3 (a b : v3) (s : R) : v3 := add3 (scl (1 - s) a) (scl s b).

(** * quaternion.hpp *)
Record quat := Quat { qx : R; qy : R; qz : R; qw : R }.
(** quaternion.hpp:23 *)
Definition qid : quat := Quat 0 0 0 1.
(** quaternion.hpp:75-82 *)
Definition qmul (q r : quat) : quat :=
  Quat (qw q * qx r + qx q * qw r + qy q * qz r - qz q * qy r)
       (qw q * qy r + qy q * qw r + qz q * qx r - qx q * qz r)
       (qw q * qz r + qz q * qw r + qx q * qy r - qy q * qx r)
       (qw q * qw r - qx q * qx r - qy q * qy r - qz q * qz r).
(** quaternion.hpp:55-72 *)
Definition qscale (s : R) (q : quat) : quat := Quat (s * qx q) (s * qy q) (s * qz q) (s * qw q).
Definition qdiv (q : quat) (s : R) : quat := Quat (qx q / s) (qy q / s) (qz q / s) (qw q / s).
(** quaternion.hpp:120-132 *)
Definition qlsq (q : quat) : R := qx q * qx q + qy q * qy q + qz q * qz q + qw q * qw q.
Definition qlen (q : quat) : R := sqrt (qlsq q).
Definition qdot (q r : quat) : R := qx q * qx r + qy q * qy r + qz q * qz r + qw q * qw r.
(** quaternion.hpp:135-139 *)
Definition qnormalize (q : quat) : res quat :=
  _ ← assert_ (rltb eps (qlen q)); Ok (qdiv q (qlen q)).
(** quaternion.hpp:142-144 *)
Definition qconj (q : quat) : quat := Quat (- qx q) (- qy q) (- qz q) (qw q).
(** quaternion.hpp:145-149 *)
Definition rotate (q : quat) (v : v3) : v3 :=
  let r := V3 (qx q) (qy q) (qz q) in
  add3 v (cross3 (scl 2 r) (add3 (cross3 r v) (scl (qw q) v))).
(** quaternion.hpp:157-161 *)
Definition quat_axis_angle (v : v3) (a : R) : quat :=
  let l := len v in
  let s := sin (a * (1 / 2)) / l in
  Quat (vx v * s) (vy v * s) (vz v * s) (cos (a * (1 / 2))).
(** quaternion.hpp:169-173 *)
Definition quat_axis_angle_unit (v : v3) (a : R) : res quat :=
  _ ← assert_ (rltb (Rabs (lsq v - 1)) eps);
  let s := sin (a * (1 / 2)) in
  Ok (Quat (vx v * s) (vy v * s) (vz v * s) (cos (a * (1 / 2)))).
(** quaternion.hpp:176-178 *)
Definition quat_angle (q : quat) : R := acos (qw q) * 2.
(** quaternion.hpp:181-190 *)
Definition quat_axis (q : quat) : v3 :=
  let s2 := 1 - qw q * qw q in
  if Rlt_dec eps s2 then
    let s := 1 / sqrt s2 in V3 (qx q * s) (qy q * s) (qz q * s)
  else ex.
(** quaternion.hpp:193-205 *)
Definition quat_x (q : quat) : v3 := rotate q ex.
Definition quat_y (q : quat) : v3 := rotate q ey.
Definition quat_z (q : quat) : v3 := rotate q ez.
(** quaternion.hpp:208-234 *)
Definition slerp (q0 q1 : quat) (s : R) : res quat :=
  let magnitude := sqrt (qlsq q0 * qlsq q1) in
  _ ← assert_ (rltb 0 magnitude);
  let prod := qdot q0 q1 / magnitude in
  let abs_prod := Rabs prod in
  if Rlt_dec (1 - eps) abs_prod then Ok q0 else
  let theta := acos abs_prod in
  let d := sin theta in
  _ ← assert_ (rltb 0 d);
  let sign := if Rlt_dec prod 0 then -1 else 1 in
  let s0 := sin ((1 - s) * theta) / d in
  let s1 := sin (sign * s * theta) / d in
  Ok (Quat (qx q0 * s0 + qx q1 * s1) (qy q0 * s0 + qy q1 * s1)
           (qz q0 * s0 + qz q1 * s1) (qw q0 * s0 + qw q1 * s1)).
(** quaternion.hpp:246-248 *)
Definition quat_derivative (q : quat) (w : v3) : quat :=
  qscale (1 / 2) (qmul (Quat (vx w) (vy w) (vz w) 0) q).
(** quaternion.cpp:7-23 *)
Definition integrate (q : quat) (w : v3) (dt : R) : res quat :=
  let ws := len w in
  let min_ws := / 1000 in
  let half := 1 / 2 in
  let t := if Rlt_dec ws min_ws
           then half * dt - dt * dt * dt * (1 / 48) * ws * ws
           else sin (half * ws * dt) / ws in
  qnormalize (qmul (Quat (vx w * t) (vy w * t) (vz w * t) (cos (half * ws * dt))) q).

(** geom.cpp:730-754 *)
Definition plane_space (n : v3) : v3 * v3 :=
  if Rlt_dec half_sqrt2 (Rabs (vz n)) then
    let a := vy n * vy n + vz n * vz n in
    let k := 1 / sqrt a in
    let p := V3 0 (- vz n * k) (vy n * k) in
    (p, V3 (a * k) (- vx n * vz p) (vx n * vy p))
  else
    let a := vx n * vx n + vy n * vy n in
    let k := 1 / sqrt a in
    let p := V3 (- vy n * k) (vx n * k) 0 in
    (p, V3 (- vz n * vy p) (vz n * vx p) (a * k)).

(** quaternion.cpp:26-39 *)
Definition shortest_arc (a b : v3) : res quat :=
  let c := cross3 a b in
  let d := dot3 a b in
  if Rle_dec d (-1 + eps) then
    let n := (plane_space a).1 in Ok (Quat (vx n) (vy n) (vz n) 0)
  else
    let s := sqrt ((1 + d) * 2) in
    let rs := 1 / s in
    qnormalize (Quat (vx c * rs) (vy c * rs) (vz c * rs) (s * (1 / 2))).
(** quaternion.cpp:41-46 *)
Definition angle_between (q0 q1 : quat) : res R :=
  let s := sqrt (qlsq q0 * qlsq q1) in
  _ ← assert_ (rltb eps (Rabs s));
  Ok (acos (qdot q0 q1 / s) * 2).

(** * matrix3x3.hpp *)
(** matrix3x3.hpp:11-12: three rows *)
Record mat := Mat { r0 : v3; r1 : v3; r2 : v3 }.
(** matrix3x3.hpp:39-42 *)
Definition mid : mat := Mat ex ey ez.
Definition mat0 : mat := Mat vec0 vec0 vec0.
(** matrix3x3.hpp:24-26 *)
Definition col0 (m : mat) : v3 := V3 (vx (r0 m)) (vx (r1 m)) (vx (r2 m)).
Definition col1 (m : mat) : v3 := V3 (vy (r0 m)) (vy (r1 m)) (vy (r2 m)).
Definition col2 (m : mat) : v3 := V3 (vz (r0 m)) (vz (r1 m)) (vz (r2 m)).
(** matrix3x3.hpp:28-30 (column_dot): the dot product with a column *)
(** matrix3x3.hpp:32-34 *)
Definition det (m : mat) : R := triple3 (r0 m) (r1 m) (r2 m).
(** matrix3x3.hpp:58-64 *)
Definition mmul (m n : mat) : mat :=
  let row v := V3 (dot3 (col0 n) v) (dot3 (col1 n) v) (dot3 (col2 n) v) in
  Mat (row (r0 m)) (row (r1 m)) (row (r2 m)).
(** matrix3x3.hpp:67-69 *)
Definition mvec (m : mat) (v : v3) : v3 := V3 (dot3 (r0 m) v) (dot3 (r1 m) v) (dot3 (r2 m) v).
(** matrix3x3.hpp:73-75 *)
Definition vmat (v : v3) (m : mat) : v3 := V3 (dot3 (col0 m) v) (dot3 (col1 m) v) (dot3 (col2 m) v).
(** matrix3x3.hpp:78-85 *)
Definition mscale (s : R) (m : mat) : mat := Mat (scl s (r0 m)) (scl s (r1 m)) (scl s (r2 m)).
(** matrix3x3.hpp:48-50 *)
Definition madd (m n : mat) : mat := Mat (add3 (r0 m) (r0 n)) (add3 (r1 m) (r1 n)) (add3 (r2 m) (r2 n)).
(** matrix3x3.hpp:150-158 *)
Definition mcols (a b c : v3) : mat :=
  Mat (V3 (vx a) (vx b) (vx c)) (V3 (vy a) (vy b) (vy c)) (V3 (vz a) (vz b) (vz c)).
(** matrix3x3.hpp:163-165 *)
Definition mtrans (m : mat) : mat := Mat (col0 m) (col1 m) (col2 m).
(** matrix3x3.hpp:168-175 *)
Definition adjugate (m : mat) : mat :=
  mcols (cross3 (r1 m) (r2 m)) (cross3 (r2 m) (r0 m)) (cross3 (r0 m) (r1 m)).
(** matrix3x3.hpp:178-187 *)
Definition minverse (m : mat) : mat :=
  let d := det m in
  let di := if Rlt_dec eps (Rabs d) then 1 / d else 0 in
  mscale di (adjugate m).
Definition reqb (a b : R) : bool := if Req_EM_T a b then true else false.
(** matrix3x3.hpp:190-218 *)
Definition minverse_sym (m : mat) : res mat :=
  _ ← assert_ (reqb (vy (r0 m)) (vx (r1 m)));
  _ ← assert_ (reqb (vz (r0 m)) (vx (r2 m)));
  _ ← assert_ (reqb (vz (r1 m)) (vy (r2 m)));
  let d := det m in
  _ ← assert_ (negb (reqb d 0));
  let di := 1 / d in
  let a11 := vx (r0 m) in let a12 := vy (r0 m) in let a13 := vz (r0 m) in
  let a22 := vy (r1 m) in let a23 := vz (r1 m) in
  let a33 := vz (r2 m) in
  let i01 := di * (a13 * a23 - a12 * a33) in
  let i02 := di * (a12 * a23 - a13 * a22) in
  let i12 := di * (a12 * a13 - a11 * a23) in
  Ok (Mat (V3 (di * (a22 * a33 - a23 * a23)) i01 i02)
          (V3 i01 (di * (a11 * a33 - a13 * a13)) i12)
          (V3 i02 i12 (di * (a11 * a22 - a12 * a12)))).
(** matrix3x3.hpp:221-227 *)
Definition mdiag (v : v3) : mat := Mat (V3 (vx v) 0 0) (V3 0 (vy v) 0) (V3 0 0 (vz v)).
(** matrix3x3.hpp:234-240 *)
Definition scale_matrix (m : mat) (v : v3) : mat := Mat (mul3 (r0 m) v) (mul3 (r1 m) v) (mul3 (r2 m) v).
(** matrix3x3.hpp:243-249 *)
Definition skew (v : v3) : mat :=
  Mat (V3 0 (- vz v) (vy v)) (V3 (vz v) 0 (- vx v)) (V3 (- vy v) (vx v) 0).
(** matrix3x3.hpp:252-265 *)
Definition to_matrix (q : quat) : mat :=
  let d := qlsq q in
  let s := 2 / d in
  let xs := qx q * s in let ys := qy q * s in let zs := qz q * s in
  let wx := qw q * xs in let wy := qw q * ys in let wz := qw q * zs in
  let xx := qx q * xs in let xy := qx q * ys in let xz := qx q * zs in
  let yy := qy q * ys in let yz := qy q * zs in let zz := qz q * zs in
  Mat (V3 (1 - (yy + zz)) (xy - wz) (xz + wy))
      (V3 (xy + wz) (1 - (xx + zz)) (yz - wx))
      (V3 (xz - wy) (yz + wx) (1 - (xx + yy))).
(** matrix3x3.hpp:268-293: the cyclic indices i, j, k are written out *)
Definition to_quat (m : mat) : quat :=
  let m00 := vx (r0 m) in let m01 := vy (r0 m) in let m02 := vz (r0 m) in
  let m10 := vx (r1 m) in let m11 := vy (r1 m) in let m12 := vz (r1 m) in
  let m20 := vx (r2 m) in let m21 := vy (r2 m) in let m22 := vz (r2 m) in
  let trace := m00 + m11 + m22 in
  if Rlt_dec 0 trace then
    let s := sqrt (trace + 1) in
    let t := (1 / 2) / s in
    Quat (t * (m21 - m12)) (t * (m02 - m20)) (t * (m10 - m01)) (1 / 2 * s)
  else
    let i := if Rlt_dec m00 m11 then (if Rlt_dec m11 m22 then 2 else 1)%nat
             else (if Rlt_dec m00 m22 then 2 else 0)%nat in
    match i with
    | O => let s := sqrt (m00 - m11 - m22 + 1) in let t := (1 / 2) / s in
        Quat (1 / 2 * s) (t * (m10 + m01)) (t * (m20 + m02)) (t * (m21 - m12))
    | S O => let s := sqrt (m11 - m22 - m00 + 1) in let t := (1 / 2) / s in
        Quat (t * (m01 + m10)) (1 / 2 * s) (t * (m21 + m12)) (t * (m02 - m20))
    | _ => let s := sqrt (m22 - m00 - m11 + 1) in let t := (1 / 2) / s in
        Quat (t * (m02 + m20)) (t * (m12 + m21)) (1 / 2 * s) (t * (m10 - m01))
    end.
(** std::atan2 (ISO C 7.12.4.4), for real arguments; atan2 0 0 is 0 *)
Definition atan2 (y x : R) : R :=
  if Rlt_dec 0 x then atan (y / x)
  else if Rlt_dec x 0 then (if Rle_dec 0 y then atan (y / x) + PI else atan (y / x) - PI)
  else if Rlt_dec 0 y then PI / 2 else if Rlt_dec y 0 then - PI / 2 else 0.
(** matrix3x3.hpp:298-320 *)
Definition euler_xyz (m : mat) : v3 :=
  if Rlt_dec (vz (r0 m)) 1 then
    if Rlt_dec (-1) (vz (r0 m)) then
      V3 (atan2 (- vz (r1 m)) (vz (r2 m))) (asin (vz (r0 m))) (atan2 (- vy (r0 m)) (vx (r0 m)))
    else V3 (- atan2 (vx (r1 m)) (vy (r1 m))) (- (PI / 2)) 0
  else V3 (atan2 (vx (r1 m)) (vy (r1 m))) (PI / 2) 0.
(** matrix3x3.hpp:322-353 *)
Definition rot_x (a : R) : mat := Mat (V3 1 0 0) (V3 0 (cos a) (- sin a)) (V3 0 (sin a) (cos a)).
Definition rot_y (a : R) : mat := Mat (V3 (cos a) 0 (sin a)) (V3 0 1 0) (V3 (- sin a) 0 (cos a)).
Definition rot_z (a : R) : mat := Mat (V3 (cos a) (- sin a) 0) (V3 (sin a) (cos a) 0) (V3 0 0 1).
(** matrix3x3.hpp:355-368 *)
Definition rot_xyz (ax ay az : R) : mat :=
  let cx := cos ax in let sx := sin ax in
  let cy := cos ay in let sy := sin ay in
  let cz := cos az in let sz := sin az in
  Mat (V3 (cy * cz) (- cy * sz) sy)
      (V3 (cz * sx * sy + cx * sz) (cx * cz - sx * sy * sz) (- cy * sx))
      (V3 (- cx * cz * sy + sx * sz) (cz * sx + cx * sy * sz) (cx * cy)).

(** * transform.hpp *)
(** transform.hpp:19-37: basis given as a matrix *)
Definition to_object_m (p pos : v3) (basis : mat) : v3 := vmat (sub3 p pos) basis.
Definition to_world_m (p pos : v3) (basis : mat) : v3 := add3 pos (mvec basis p).
(** transform.hpp:39-47 *)
Definition to_object (p pos : v3) (orn : quat) : v3 := rotate (qconj orn) (sub3 p pos).
Definition to_world (p pos : v3) (orn : quat) : v3 := add3 pos (rotate orn p).

(** geom.cpp:756-760 *)
Definition make_tangent_basis (n : v3) : mat :=
  let '(t, u) := plane_space n in mcols t n u.

(** * coordinate_axis.hpp *)
(** coordinate_axis.hpp:14-16 *)
Inductive axis := AX | AY | AZ.
(** coordinate_axis.hpp:23-34 *)
Definition axis_vec (a : axis) : v3 := match a with AX => ex | AY => ey | AZ => ez end.
(** coordinate_axis.hpp:42-44 *)
Definition axis_vec_q (a : axis) (q : quat) : v3 := rotate q (axis_vec a).
