(** The geometry of the constraints: Jacobians, errors and the other quantities
    that [prepare] of the ten constraint types computes from positions,
    orientations and velocities (src/edyn/constraints/*.cpp), and the position
    corrections (include/edyn/dynamics/position_solver.hpp).

    JointModel.v models which rows exist, with which limits and impulses, for an
    arbitrary geometric input [geo]; here that input is computed, so
    [prepare_joint] below is the whole of [prepare].

    Simplification: scalars are real numbers (see GeoModel.v). *)
From Verif Require Import Outcome BoxModel GeoModel.
From Verif Require RowModel JointModel.
From Coq Require Import Reals.
Local Open Scope R_scope.

(** constants.hpp:16: 1e18 *)
Definition large_scalar : R := 1000000000000000000.
(** constants.hpp:19: 6.674e-11 *)
Definition gravitational : R := 6674 / 100000000000000.
(** The numbers of RowModel.v, over the reals. *)
Definition Rnum : RowModel.num :=
  RowModel.Num R 0 1 Rplus Rminus Rmult Rdiv Ropp sqrt rltb eps large_scalar scalar_max gravitational.
Definition rv (v : v3) : RowModel.vec Rnum := RowModel.Vec (N := Rnum) (vx v) (vy v) (vz v).
Definition rm (m : mat) : RowModel.mat Rnum := RowModel.Mat (N := Rnum) (rv (r0 m)) (rv (r1 m)) (rv (r2 m)).

(** constraint_row.hpp:22: [std::array<vector3, 4> J] *)
Record jac := Jac { ja : v3; jb : v3; jc : v3; jd : v3 }.
Definition rj (J : jac) : RowModel.jac Rnum :=
  RowModel.Jac (N := Rnum) (rv (ja J)) (rv (jb J)) (rv (jc J)) (rv (jd J)).

(** constraint_body.hpp:10-18 *)
Record cbody := CBody {
  cb_origin : v3; cb_pos : v3; cb_orn : quat; cb_lin : v3; cb_ang : v3; cb_im : R; cb_I : mat }.
Definition rb (p : RowModel.ptr) (b : cbody) : JointModel.body Rnum :=
  JointModel.Body (N := Rnum) p (cb_im b) (rm (cb_I b)) (rv (cb_lin b)) (rv (cb_ang b)).

(** constraint_util.cpp:148-158 *)
Definition relative_speed (J : jac) (A B : cbody) : R :=
  dot3 (ja J) (cb_lin A) + dot3 (jb J) (cb_ang A) + dot3 (jc J) (cb_lin B) + dot3 (jd J) (cb_ang B).
(** constraint_util.cpp:137-146 and constraint_row.cpp:10-13 *)
Definition jmj (J : jac) (ima : R) (Ia : mat) (imb : R) (Ib : mat) : R :=
  dot3 (ja J) (ja J) * ima + dot3 (mvec Ia (jb J)) (jb J) +
  dot3 (jc J) (jc J) * imb + dot3 (mvec Ib (jd J)) (jd J).

(** The two forms of Jacobians that occur in all constraints:
    [{d, cross(rA, d), -d, -cross(rB, d)}] and
    [{vector3_zero, a, vector3_zero, -b}]. *)
Definition jpull (rA rB d : v3) : jac :=
  Jac d (cross3 rA d) (neg3 d) (neg3 (cross3 rB d)).
Definition jturn (a b : v3) : jac := Jac vec0 a vec0 (neg3 b).

(** The geometric fields of a constraint; each type only has those it uses:
    pivots and frames (in object space), [rest_direction] (cv-joint), [span_tan]
    (cone), [distance] (distance, soft distance), [speed] (hinge), [normal] and
    [roll_dir] (contacts), and the restitution of the limit rows, by impulse
    field as numbered in JointModel.v. *)
Record joint := Joint {
  jt_pa : v3; jt_pb : v3; jt_fa : mat; jt_fb : mat; jt_rest_dir : v3;
  jt_tan0 : R; jt_tan1 : R; jt_dist : R; jt_speed : R;
  jt_normal : v3; jt_roll0 : v3; jt_roll1 : v3; jt_e : nat → R }.

(** The first lines of every [prepare] but gravity, e.g. hinge_constraint.cpp:29-32 *)
Definition pivot_a (j : joint) (A : cbody) : v3 := to_world (jt_pa j) (cb_origin A) (cb_orn A).
Definition pivot_b (j : joint) (B : cbody) : v3 := to_world (jt_pb j) (cb_origin B) (cb_orn B).
Definition arm_a (j : joint) (A : cbody) : v3 := sub3 (pivot_a j A) (cb_pos A).
Definition arm_b (j : joint) (B : cbody) : v3 := sub3 (pivot_b j B) (cb_pos B).

(** constraint_row_options.hpp:12-19 *)
Definition default_erp : R := 2 / 10.

(** Division; by zero it is undefined behaviour here (infinity or NaN in the
    code, which the reals do not have). *)
Definition rdiv (a b : R) : res R := if Req_EM_T b 0 then UB else Ok (a / b).

(** * Angles *)
(** [std::fmod], for a positive second argument: the quotient is truncated *)
Definition trunc (x : R) : R := if Rlt_dec x 0 then - IZR (Int_part (- x)) else IZR (Int_part x).
Definition fmod (x y : R) : R := x - trunc (x / y) * y.
(** math.hpp:53-63 *)
Definition normalize_angle (s : R) : R :=
  let s := fmod s (2 * PI) in
  if Rlt_dec s (- PI) then s + 2 * PI else if Rlt_dec PI s then s - 2 * PI else s.
(** hinge_constraint.cpp:81-86, cvjoint_constraint.cpp:35-41: [angle_delta] *)
Definition angle_delta (previous current : R) : R :=
  let d0 := current - normalize_angle previous in
  let d1 := d0 + 2 * PI * (if Rlt_dec d0 0 then 1 else -1) in
  if Rlt_dec (Rabs d0) (Rabs d1) then d0 else d1.
(** hinge_constraint.cpp:87, cvjoint_constraint.cpp:42 *)
Definition track_angle (previous current : R) : R := previous + angle_delta previous current.

(** * Jacobians *)
(** gravity_constraint.cpp:10-15, 21 *)
Definition gravity_jac (A B : cbody) : jac :=
  let d := sub3 (cb_pos A) (cb_pos B) in
  let l2 := Rmax (lsq d) eps in
  let dn := div3 d (sqrt l2) in
  Jac dn vec0 (neg3 dn) (neg3 vec0).

(** distance_constraint.cpp:11-24 *)
Definition distance_jac (j : joint) (A B : cbody) : jac :=
  let d := sub3 (pivot_a j A) (pivot_b j B) in
  let d := if rltb eps (lsq d) then d else ex in
  jpull (arm_a j A) (arm_b j B) d.

(** soft_distance_constraint.cpp:12-29, 39 and 51: both rows *)
Definition soft_jac (j : joint) (A B : cbody) : jac :=
  let d := sub3 (pivot_a j A) (pivot_b j B) in
  let dn := if rltb eps (lsq d) then div3 d (len d) else ex in
  jpull (arm_a j A) (arm_b j B) dn.

(** point_constraint.cpp:18-25, hinge_constraint.cpp:34-42,
    cvjoint_constraint.cpp:54-61: [{I.row[i], -rA_skew.row[i], -I.row[i], rB_skew.row[i]}] *)
Definition mrow (m : mat) (i : nat) : v3 := match i with 0%nat => r0 m | 1%nat => r1 m | _ => r2 m end.
Definition mcol (m : mat) (i : nat) : v3 := match i with 0%nat => col0 m | 1%nat => col1 m | _ => col2 m end.
Definition pivot_jac (j : joint) (A B : cbody) (i : nat) : jac :=
  Jac (mrow mid i) (neg3 (mrow (skew (arm_a j A)) i))
      (neg3 (mrow mid i)) (mrow (skew (arm_b j B)) i).

(** point_constraint.cpp:34-39 *)
Definition point_spin (A B : cbody) : option v3 := try_normalize (sub3 (cb_ang A) (cb_ang B)).

(** hinge_constraint.cpp:50-52, 73-75, 79 *)
Definition hinge_p (j : joint) (A : cbody) : v3 := rotate (cb_orn A) (col1 (jt_fa j)).
Definition hinge_q (j : joint) (A : cbody) : v3 := rotate (cb_orn A) (col2 (jt_fa j)).
Definition axis_a (j : joint) (A : cbody) : v3 := rotate (cb_orn A) (col0 (jt_fa j)).
Definition axis_b (j : joint) (B : cbody) : v3 := rotate (cb_orn B) (col0 (jt_fb j)).
(** hinge_constraint.cpp:79-80 *)
Definition hinge_angle (j : joint) (A B : cbody) : R :=
  let b := rotate (cb_orn B) (col1 (jt_fb j)) in
  atan2 (dot3 b (hinge_q j A)) (dot3 b (hinge_p j A)).

(** cvjoint_constraint.cpp:22-32, generic_constraint.cpp:134-141 *)
Definition twist_angle (j : joint) (A B : cbody) : res R :=
  arc ← shortest_arc (axis_b j B) (axis_a j A);
  let b := rotate (qmul (qmul (qconj (cb_orn A)) arc) (cb_orn B)) (col1 (jt_fb j)) in
  Ok (atan2 (dot3 b (col2 (jt_fa j))) (dot3 b (col1 (jt_fa j)))).

(** cvjoint_constraint.cpp:174-185: the axis and the speed of bending *)
Definition bend_velocity (j : joint) (A B : cbody) : v3 :=
  let ta := scl (dot3 (cb_ang A) (axis_a j A)) (axis_a j A) in
  let tb := scl (dot3 (cb_ang B) (axis_b j B)) (axis_b j B) in
  sub3 (sub3 (cb_ang A) ta) (sub3 (cb_ang B) tb).
Definition bend_axis (j : joint) (A B : cbody) : v3 :=
  let w := bend_velocity j A B in
  if rltb eps (len w) then div3 w (len w) else hinge_p j A.
(** cvjoint_constraint.cpp:204-213 *)
Definition spring_cross (j : joint) (A B : cbody) : v3 :=
  cross3 (rotate (cb_orn A) (jt_rest_dir j)) (axis_b j B).
Definition spring_axis (j : joint) (A B : cbody) : v3 :=
  let w := spring_cross j A B in
  if rltb eps (len w) then div3 w (len w) else hinge_p j A.
Definition spring_angle (j : joint) (A B : cbody) : R := asin (len (spring_cross j A B)).

(** generic_constraint.cpp:18-29 *)
Definition linear_axis (j : joint) (A : cbody) (i : nat) : v3 := rotate (cb_orn A) (mcol (jt_fa j) i).
Definition linear_jac (j : joint) (A B : cbody) (i : nat) : jac :=
  jpull (arm_a j A) (arm_b j B) (linear_axis j A i).
Definition linear_offset (j : joint) (A B : cbody) (i : nat) : R :=
  dot3 (sub3 (pivot_b j B) (pivot_a j A)) (linear_axis j A i).
(** generic_constraint.cpp:144-155, for i = 1, 2: the axis of A compared with
    the first axis of B, the angle and the axis of rotation *)
Definition other_axis (j : joint) (A : cbody) (i : nat) : v3 :=
  rotate (cb_orn A) (mcol (jt_fa j) (if Nat.eqb i 1 then 2 else 1)).
Definition swing_angle (j : joint) (A B : cbody) (i : nat) : R :=
  PI / 2 - acos (Rmax (-1) (Rmin 1 (dot3 (axis_b j B) (other_axis j A i)))).
Definition swing_axis (j : joint) (A B : cbody) (i : nat) : v3 :=
  neg3 (match try_normalize (cross3 (other_axis j A i) (axis_b j B)) with
        | Some a => a
        | None => if Nat.eqb i 1 then ez else ey
        end).
Definition swing_jac (j : joint) (A B : cbody) (i : nat) : jac :=
  jturn (swing_axis j A B i) (swing_axis j A B i).

(** cone_constraint.cpp:24-63, in the frame of the cone; [p] is
    [pivotB_in_A_frame].  Results: [error], [point_on_cone], [normal]. *)
Definition cone_frame (p : v3) (tan0 tan1 : R) : res (R * v3 * v3) :=
  sy ← rdiv 1 tan0;
  sz ← rdiv 1 tan1;
  let q := mul3 p (V3 1 sy sz) in
  let yz := vy q * vy q + vz q * vz q in
  n ← (if rltb eps yz then normalize3 (V3 (- sqrt yz) (vy q) (vz q)) else normalize3 (V3 (-1) 1 0));
  t ← (if rltb eps yz then normalize3 (V3 0 (- vz q) (vy q)) else normalize3 (V3 0 0 1));
  let error := dot3 q n in
  let dir := V3 (- vx n) (vy n) (vz n) in
  let point_scaled := scl (dot3 q dir) dir in
  uy ← rdiv 1 sy;
  uz ← rdiv 1 sz;
  let point := mul3 point_scaled (V3 1 uy uz) in
  t ← normalize3 (mul3 t (V3 1 uy uz));
  n ← normalize3 (cross3 t point);
  Ok (error, point, n).
(** cone_constraint.cpp:20-22, 58-72 *)
Definition cone_pivot (j : joint) (A B : cbody) : v3 :=
  to_object_m (to_object (pivot_b j B) (cb_origin A) (cb_orn A)) (jt_pa j) (jt_fa j).
Definition cone_jac (j : joint) (A B : cbody) : res (R * jac) :=
  r ← cone_frame (cone_pivot j A B) (jt_tan0 j) (jt_tan1 j);
  let '(error, point, normal) := r in
  let pa := to_world (to_world_m point (jt_pa j) (jt_fa j)) (cb_origin A) (cb_orn A) in
  let n := rotate (cb_orn A) (mvec (jt_fa j) normal) in
  Ok (error, jpull (sub3 pa (cb_pos A)) (arm_b j B) n).

(** contact_constraint.cpp:21-28, 45-51: i = 0 is the normal row, i = 1, 2 the
    friction rows *)
Definition contact_dir (j : joint) (i : nat) : v3 :=
  match i with
  | 0%nat => jt_normal j
  | 1%nat => (plane_space (jt_normal j)).1
  | _ => (plane_space (jt_normal j)).2
  end.
Definition contact_jac (j : joint) (A B : cbody) (i : nat) : jac :=
  jpull (arm_a j A) (arm_b j B) (contact_dir j i).
(** contact_extras_constraint.cpp:19-22 *)
Definition point_velocity (b : cbody) (r : v3) : v3 := add3 (cb_lin b) (cross3 (cb_ang b) r).
Definition contact_speed (j : joint) (A B : cbody) : R :=
  dot3 (sub3 (point_velocity A (arm_a j A)) (point_velocity B (arm_b j B))) (jt_normal j).
(** contact_extras_constraint.cpp:41-58: rolling axes; both roll directions are
    turned with the orientation of A (line 50) *)
Definition veqb (v w : v3) : bool := reqb (vx v) (vx w) && reqb (vy v) (vy w) && reqb (vz v) (vz w).
Definition roll_scale (A : cbody) (dir axis : v3) : v3 :=
  if veqb dir vec0 then axis else scl (dot3 (rotate (cb_orn A) dir) axis) axis.
Definition roll_axis (j : joint) (A : cbody) (i : nat) : v3 :=
  let t := contact_dir j i in
  roll_scale A (jt_roll1 j) (roll_scale A (jt_roll0 j) t).

(** * The geometric input of [prepare] *)
Definition pick {X} (i : nat) (xs : list X) (d : X) : X := nth i xs d.
Definition jzero : jac := Jac vec0 vec0 vec0 vec0.
Definition geo_ (Js : list jac) (errs : list R) (erps : list R) (e : nat → R) (ss : list R) (spin : bool)
    : JointModel.geo Rnum :=
  JointModel.Geo (N := Rnum) (λ i, rj (pick i Js jzero)) (λ i, pick i errs 0)
    (λ i, pick i erps default_erp) e (λ i, pick i ss 0) spin.

(** The error of a limit row, hinge_constraint.cpp:92-107,
    cvjoint_constraint.cpp:82-97, generic_constraint.cpp:41-50 and 171-180 *)
Definition limit_error (lo up x : R) : R := if rltb x ((lo + up) / 2) then lo - x else up - x.
Definition bump_defl (lo up margin x : R) : R := JointModel.bump (N := Rnum) lo up margin x.

Definition geo_hinge (h : JointModel.hinge_cfg Rnum) (j : joint) (dt : R) (A B : cbody) :=
  let delta := angle_delta (JointModel.h_angle h) (hinge_angle j A B) in
  let angle := JointModel.h_angle h + delta in
  let turn := jturn (axis_a j A) (axis_a j A) in
  geo_ [pivot_jac j A B 0; pivot_jac j A B 1; pivot_jac j A B 2;
        jturn (hinge_p j A) (hinge_p j A); jturn (hinge_q j A) (hinge_q j A); turn; turn; turn; turn]
       [0; 0; 0; 0; 0;
        limit_error (JointModel.h_min h) (JointModel.h_max h) angle / dt;
        - bump_defl (JointModel.h_min h) (JointModel.h_max h) (JointModel.h_bs_angle h) angle / dt;
        - (angle - JointModel.h_rest h) / dt;
        - jt_speed j] [] (jt_e j)
       [delta; dot3 (cb_ang A) (axis_a j A) - dot3 (cb_ang B) (axis_a j A)] false.

(** generic_constraint.cpp:22-124: errors and scalars of a linear degree of freedom *)
Definition linear_errs (d : JointModel.dof_cfg Rnum) (x dt : R) : list R :=
  let lo := JointModel.d_min d in let up := JointModel.d_max d in
  [(if JointModel.d_nonzero d && rltb lo x && rltb x up then limit_error lo up x / dt else 0);
   - bump_defl lo up (JointModel.d_bs_len d) x / dt;
   - (x - JointModel.d_rest d) / dt; 0].
Definition linear_erps (d : JointModel.dof_cfg Rnum) : list R :=
  [if JointModel.d_nonzero d then 9 / 10 else default_erp; default_erp; default_erp; default_erp].
(** generic_constraint.cpp:130-249 *)
Definition angular_errs (d : JointModel.dof_cfg Rnum) (x dt : R) : list R :=
  let lo := JointModel.d_min d in let up := JointModel.d_max d in
  [(if JointModel.d_nonzero d then limit_error lo up x / dt else - x / dt);
   - bump_defl lo up (JointModel.d_bs_len d) x / dt;
   - (x - JointModel.d_rest d) / dt; 0].

Definition geo_generic (l0 l1 l2 a0 a1 a2 : JointModel.dof_cfg Rnum) (j : joint) (dt : R) (A B : cbody)
    : res (JointModel.geo Rnum) :=
  twist ← twist_angle j A B;
  let Jt := jturn (axis_a j A) (axis_b j B) in
  let four (J : jac) := [J; J; J; J] in
  let x i := linear_offset j A B i in
  let sc y J := [y; relative_speed J A B; 0; 0] in
  Ok (geo_ (four (linear_jac j A B 0) ++ four (linear_jac j A B 1) ++ four (linear_jac j A B 2) ++
            four Jt ++ four (swing_jac j A B 1) ++ four (swing_jac j A B 2))
           (linear_errs l0 (x 0%nat) dt ++ linear_errs l1 (x 1%nat) dt ++ linear_errs l2 (x 2%nat) dt ++
            angular_errs a0 twist dt ++ angular_errs a1 (swing_angle j A B 1) dt ++
            angular_errs a2 (swing_angle j A B 2) dt)
           (linear_erps l0 ++ linear_erps l1 ++ linear_erps l2) (jt_e j)
           (sc (x 0%nat) (linear_jac j A B 0) ++ sc (x 1%nat) (linear_jac j A B 1) ++
            sc (x 2%nat) (linear_jac j A B 2) ++ sc twist Jt ++
            sc (swing_angle j A B 1) (swing_jac j A B 1) ++
            sc (swing_angle j A B 2) (swing_jac j A B 2)) false).

(** cvjoint_constraint.cpp:45-228 *)
Definition geo_cv (c : JointModel.cv_cfg Rnum) (j : joint) (dt : R) (A B : cbody)
    : res (JointModel.geo Rnum) :=
  measured ← twist_angle j A B;
  let delta := angle_delta (JointModel.v_angle c) measured in
  let angle := if JointModel.v_has_limit c then JointModel.v_angle c + delta else JointModel.v_angle c in
  let lo := JointModel.v_min c in let up := JointModel.v_max c in
  let Jt := jturn (axis_a j A) (axis_b j B) in
  let Jb := jturn (bend_axis j A B) (bend_axis j A B) in
  let Js := jturn (spring_axis j A B) (spring_axis j A B) in
  Ok (geo_ [pivot_jac j A B 0; pivot_jac j A B 1; pivot_jac j A B 2; Jt; Jt; Jt; Jt; Jb; Js]
       [0; 0; 0;
        (if JointModel.v_has_limit c && rltb lo angle && rltb angle up then limit_error lo up angle / dt else 0);
        - bump_defl lo up (JointModel.v_bs_angle c) angle / dt;
        - (angle - JointModel.v_rest c) / dt; 0; 0;
        - spring_angle j A B / dt] [] (jt_e j)
       [delta; relative_speed Jt A B; len (bend_velocity j A B); spring_angle j A B] false).

(** [con.prepare(...)] up to what is not geometric; [dt] is positive. *)
Definition geo_of (c : JointModel.config Rnum) (j : joint) (dt : R) (A B : cbody)
    : res (JointModel.geo Rnum) :=
  match c with
  | JointModel.KGravity =>
      Ok (geo_ [gravity_jac A B] [large_scalar] [] (jt_e j)
            [lsq (sub3 (cb_pos A) (cb_pos B))] false)
  | JointModel.KDistance =>
      let d := sub3 (pivot_a j A) (pivot_b j B) in
      Ok (geo_ [distance_jac j A B] [1 / 2 * (lsq d - jt_dist j * jt_dist j) / dt] [] (jt_e j) [] false)
  | JointModel.KSoft dist stiff _ =>
      let d := len (sub3 (pivot_a j A) (pivot_b j B)) in
      let J := soft_jac j A B in
      (* soft_distance_constraint.cpp:33-45 *)
      let err := if rltb 0 (stiff * (dist - d) * dt) then - large_scalar else large_scalar in
      Ok (geo_ [J; J] [err; 0] [] (jt_e j) [d; relative_speed J A B] false)
  | JointModel.KHinge h => Ok (geo_hinge h j dt A B)
  | JointModel.KGeneric l0 l1 l2 a0 a1 a2 => geo_generic l0 l1 l2 a0 a1 a2 j dt A B
  | JointModel.KCv c => geo_cv c j dt A B
  | JointModel.KCone _ bsl =>
      r ← cone_jac j A B;
      let '(error, J) := r in
      (* cone_constraint.cpp:83, 92 *)
      Ok (geo_ [J; J] [- error / dt; - (bsl + error) / dt] [] (jt_e j) [error] false)
  | JointModel.KPoint _ =>
      let d := sub3 (pivot_a j A) (pivot_b j B) in
      let spin := match point_spin A B with Some a => a | None => vec0 end in
      Ok (geo_ [pivot_jac j A B 0; pivot_jac j A B 1; pivot_jac j A B 2; jturn spin spin]
            [vx d / dt; vy d / dt; vz d / dt; 0] [] (jt_e j) []
            (match point_spin A B with Some _ => true | None => false end))
  | JointModel.KContact o =>
      Ok (geo_ [contact_jac j A B 0; contact_jac j A B 1; contact_jac j A B 2]
            [if rltb 0 (JointModel.o_dist o) then JointModel.o_dist o / dt else 0] [] (jt_e j) [] false)
  | JointModel.KExtras o x =>
      (* contact_extras_constraint.cpp:16, 33: a soft contact replaces the error *)
      let soft := rltb (JointModel.o_dist o) 0 && rltb (JointModel.x_stiff x) large_scalar in
      Ok (geo_ [contact_jac j A B 0; contact_jac j A B 1; contact_jac j A B 2;
                jturn (roll_axis j A 1) (roll_axis j A 1); jturn (roll_axis j A 2) (roll_axis j A 2);
                jturn (jt_normal j) (jt_normal j)]
            [if soft then - large_scalar
             else if rltb 0 (JointModel.o_dist o) then JointModel.o_dist o / dt else 0] [] (jt_e j)
            [contact_speed j A B] false)
  end.

(** The whole of [con.prepare(cache, dt, bodyA, bodyB)]; [pA], [pB] are the
    delta velocity pointers of the bodies (solver.cpp:113-143). *)
Definition prepare_joint (c : JointModel.config Rnum) (j : joint) (imps : list R) (dt : R)
    (pA pB : RowModel.ptr) (A B : cbody) : res (JointModel.config Rnum * list (JointModel.req Rnum)) :=
  g ← geo_of c j dt A B;
  JointModel.prepare c imps dt g (rb pA A) (rb pB B).

(** * Applying impulses and corrections *)
(** constraint_row.cpp:24-32: the velocities once the deltas have been added
    (island_solver.cpp:357-370) *)
Definition push (imp : R) (J : jac) (A B : cbody) : cbody * cbody :=
  (CBody (cb_origin A) (cb_pos A) (cb_orn A)
     (add3 (cb_lin A) (scl imp (scl (cb_im A) (ja J))))
     (add3 (cb_ang A) (scl imp (mvec (cb_I A) (jb J)))) (cb_im A) (cb_I A),
   CBody (cb_origin B) (cb_pos B) (cb_orn B)
     (add3 (cb_lin B) (scl imp (scl (cb_im B) (jc J))))
     (add3 (cb_ang B) (scl imp (mvec (cb_I B) (jd J)))) (cb_im B) (cb_I B)).

(** position_solver.hpp:15-75: one body; [None] origin when it has no centre of
    mass component.  [error_correction_rate] is 0.2 (line 73). *)
Record sbody := SBody {
  sb_origin : option v3; sb_com : v3; sb_pos : v3; sb_orn : quat;
  sb_im : R; sb_I : mat; sb_Il : mat }.
Definition correction_rate : R := 2 / 10.
(** position_solver.hpp:57-63 *)
Definition s_origin (b : sbody) : v3 := match sb_origin b with Some o => o | None => sb_pos b end.
(** quaternion.hpp:26-28 *)
Definition qadd (q r : quat) : quat := Quat (qx q + qx r) (qy q + qy r) (qz q + qz r) (qw q + qw r).
(** position_solver.hpp:19-52 for one body; [l] and [a] are the linear and the
    angular part of the Jacobian *)
Definition correct_body (correction : R) (l a : v3) (b : sbody) : res sbody :=
  let pos := add3 (sb_pos b) (scl correction (scl (sb_im b) l)) in
  let w := scl correction (mvec (sb_I b) a) in
  orn ← qnormalize (qadd (sb_orn b) (quat_derivative (sb_orn b) w));
  let origin := match sb_origin b with Some _ => Some (to_world (neg3 (sb_com b)) pos orn) | None => None end in
  let basis := to_matrix orn in
  Ok (SBody origin (sb_com b) pos orn (sb_im b) (mmul (mmul basis (sb_Il b)) (mtrans basis)) (sb_Il b)).
(** position_solver.hpp:15-55 *)
Definition solve_position (J : jac) (error : R) (A B : sbody) : res (sbody * sbody) :=
  eff ← rdiv 1 (jmj J (sb_im A) (sb_I A) (sb_im B) (sb_I B));
  let correction := error * correction_rate * eff in
  A ← correct_body correction (ja J) (jb J) A;
  B ← correct_body correction (jc J) (jd J) B;
  Ok (A, B).
(** contact_constraint.hpp, contact_normal_attachment.hpp: what the normal is fixed to *)
Inductive attachment := OnA | OnB | Loose.
(** contact_constraint.cpp:58-90: the normal, the distance and the bodies *)
Definition solve_contact (pa pb local normal : v3) (at_ : attachment) (A B : sbody)
    : res (v3 * R * (sbody * sbody)) :=
  let paw := to_world pa (s_origin A) (sb_orn A) in
  let pbw := to_world pb (s_origin B) (sb_orn B) in
  let n := match at_ with OnA => rotate (sb_orn A) local | OnB => rotate (sb_orn B) local | Loose => normal end in
  let distance := dot3 (sub3 paw pbw) n in
  if rltb (- eps) distance then Ok (n, distance, (A, B))
  else
    AB ← solve_position (jpull (sub3 paw (sb_pos A)) (sub3 pbw (sb_pos B)) n) (- distance) A B;
    Ok (n, distance, AB).

(** hinge_constraint.cpp:200-212, cvjoint_constraint.cpp:255-267: joining the pivots *)
Definition solve_join (pa pb : v3) (A B : sbody) : res (sbody * sbody) :=
  let paw := to_world pa (s_origin A) (sb_orn A) in
  let pbw := to_world pb (s_origin B) (sb_orn B) in
  let dir := sub3 paw pbw in
  let error := len dir in
  if rltb eps error then
    let dir := div3 dir error in
    solve_position (jpull (sub3 paw (sb_pos A)) (sub3 pbw (sb_pos B)) dir) (- error) A B
  else Ok (A, B).
(** hinge_constraint.cpp:192-198 *)
Definition solve_tilt (p : v3) (error : R) (A B : sbody) : res (sbody * sbody) :=
  if rltb eps (Rabs error) then solve_position (jturn p p) error A B else Ok (A, B).
(** hinge_constraint.cpp:180-213 *)
Definition solve_hinge (j : joint) (A B : sbody) : res (sbody * sbody) :=
  let axisA := rotate (sb_orn A) (col0 (jt_fa j)) in
  let axisB := rotate (sb_orn B) (col0 (jt_fb j)) in
  let '(p, q) := plane_space axisA in
  let u := cross3 axisA axisB in
  AB ← solve_tilt p (dot3 u p) A B;
  AB ← solve_tilt q (dot3 u q) AB.1 AB.2;
  solve_join (jt_pa j) (jt_pb j) AB.1 AB.2.
(** cvjoint_constraint.cpp:22-32 *)
Definition relative_angle (j : joint) (qa qb : quat) : res R :=
  arc ← shortest_arc (rotate qb (col0 (jt_fb j))) (rotate qa (col0 (jt_fa j)));
  let b := rotate (qmul (qmul (qconj qa) arc) qb) (col1 (jt_fb j)) in
  Ok (atan2 (dot3 b (col2 (jt_fa j))) (dot3 b (col1 (jt_fa j)))).
(** cvjoint_constraint.cpp:244-248, generic_constraint.cpp:273-277: how far [x] is outside of a range *)
Definition range_error (lo up x : R) : R :=
  if rltb x lo then x - lo else if rltb up x then x - up else 0.
(** cvjoint_constraint.cpp:230-268; also the new [twist_angle] *)
Definition solve_cv (lo up : R) (angle : R) (j : joint) (A B : sbody) : res (R * (sbody * sbody)) :=
  let axisA := rotate (sb_orn A) (col0 (jt_fa j)) in
  let axisB := rotate (sb_orn B) (col0 (jt_fb j)) in
  measured ← relative_angle j (sb_orn A) (sb_orn B);
  let angle := if rltb lo up then track_angle angle measured else angle in
  let error := if rltb lo up then range_error lo up angle else measured in
  AB ← solve_position (jturn axisA axisB) error A B;
  AB ← solve_join (jt_pa j) (jt_pb j) AB.1 AB.2;
  Ok (angle, AB).
(** generic_constraint.cpp:252-282, one degree of freedom *)
Definition solve_linear (d : JointModel.dof_cfg Rnum) (i : nat) (j : joint) (A B : sbody) : res (sbody * sbody) :=
  if JointModel.d_enabled d then
    let paw := to_world (jt_pa j) (s_origin A) (sb_orn A) in
    let pbw := to_world (jt_pb j) (s_origin B) (sb_orn B) in
    let axis := rotate (sb_orn A) (mcol (jt_fa j) i) in
    let proj := dot3 (sub3 pbw paw) axis in
    solve_position (jpull (sub3 paw (sb_pos A)) (sub3 pbw (sb_pos B)) axis)
      (range_error (JointModel.d_min d) (JointModel.d_max d) proj) A B
  else Ok (A, B).
Definition solve_generic (l0 l1 l2 : JointModel.dof_cfg Rnum) (j : joint) (A B : sbody) : res (sbody * sbody) :=
  AB ← solve_linear l0 0 j A B;
  AB ← solve_linear l1 1 j AB.1 AB.2;
  solve_linear l2 2 j AB.1 AB.2.
