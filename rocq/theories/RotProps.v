(** Property theorems for orientations, matrices and frames (C54-C56). *)
From Verif Require Import Outcome BoxModel GeoModel RotSpec RotProofs RotProofs2 RotProofs3 RotProofs4 RotProofs5.
From Coq Require Import Reals Lra Psatz.
Local Open Scope R_scope.

(** * C54: orientations and frames *)

(** A unit quaternion turns vectors by a rotation, its conjugate undoes it, and
    a product acts as one rotation after the other. *)
Theorem C54_unit_quaternion_rotates q r v : qlsq q = 1 → qlsq r = 1 →
  is_rotation (rotate q) ∧
  rotate (qconj q) (rotate q v) = v ∧ rotate q (rotate (qconj q) v) = v ∧
  qlsq (qmul q r) = 1 ∧ rotate (qmul q r) v = rotate q (rotate r v) ∧
  rotate qid v = v ∧ len (rotate q v) = len v.
Proof.
  intros U V. split_and!.
  - by apply rotate_rotation.
  - by apply conj_inv.
  - by apply conj_inv'.
  - by apply unit_mul.
  - by apply rotate_mul.
  - clear. vring.
  - unfold len, lsq. by rewrite rotate_dot.
Qed.

(** The matrix of a quaternion acts like the quaternion; a quaternion of any
    other nonzero length still gives a rotation matrix, that of its unit
    multiple. *)
Theorem C54_matrix_of_quaternion q v : q ≠ Quat 0 0 0 0 →
  is_rotation (mvec (to_matrix q)) ∧
  (qlsq q = 1 → mvec (to_matrix q) v = rotate q v) ∧
  mvec (to_matrix q) v = rotate (qdiv q (qlen q)) v ∧
  (∀ s, s ≠ 0 → to_matrix (qscale s q) = to_matrix q).
Proof.
  intros N. pose proof (qlen_pos q N) as P. split_and!.
  - by apply to_matrix_rotation.
  - intros U. by apply to_matrix_rotate.
  - rewrite to_matrix_norm by done. by apply to_matrix_rotate, qdiv_unit.
  - intros s Hs. apply to_matrix_scale; [done|]. rewrite <- qlen_sq. nra.
Qed.

(** Rotating by a quaternion that is not of unit length is not a rotation. *)
Theorem C54_scaled_quaternion_refuted :
  ∃ q, q ≠ Quat 0 0 0 0 ∧ is_rotation (mvec (to_matrix q)) ∧ ¬ is_rotation (rotate q).
Proof.
  exists (Quat 2 0 0 0).
  assert (Quat 2 0 0 0 ≠ Quat 0 0 0 0) as N. { intros H. injection H. lra. }
  split_and!; [done|by apply to_matrix_rotation|].
  intros (_ & _ & D & _). specialize (D ey ey). revert D. unfold rotate, dot3, cross3, add3, scl, ey. cbn [vx vy vz qx qy qz qw].
  lra.
Qed.

(** World and object space: each map undoes the other, distances are kept, and
    the frame given as a matrix is the frame given as a quaternion. *)
Theorem C54_frames p p' pos q : qlsq q = 1 →
  to_object (to_world p pos q) pos q = p ∧
  to_world (to_object p pos q) pos q = p ∧
  GeoModel.dist (to_world p pos q) (to_world p' pos q) = GeoModel.dist p p' ∧
  GeoModel.dist (to_object p pos q) (to_object p' pos q) = GeoModel.dist p p' ∧
  to_world_m p pos (to_matrix q) = to_world p pos q ∧
  to_object_m p pos (to_matrix q) = to_object p pos q.
Proof.
  intros U. unfold to_object, to_world, to_object_m, to_world_m, GeoModel.dist.
  assert (∀ r : quat, unitq r → ∀ v, len (rotate r v) = len v) as K.
  { intros r Ur v. unfold len, lsq. by rewrite rotate_dot. }
  split_and!.
  - rewrite <- (conj_inv q p U) at 2. f_equal. clear. vring.
  - rewrite conj_inv' by done. clear. vring.
  - rewrite <- (K q U (p - p')%V), rotate_sub. f_equal. generalize (rotate q p), (rotate q p'). clear. vring.
  - rewrite <- (K _ (unit_conj q U) (p - p')%V). rewrite <- rotate_sub. do 2 f_equal. clear. vring.
  - by rewrite to_matrix_rotate.
  - rewrite <- to_matrix_rotate by (by apply unit_conj).
    generalize (p - pos)%V. intros v.
    assert (to_matrix (qconj q) = mtrans (to_matrix q)) as ->.
    { destruct q as [x y z w]. unfold to_matrix, qconj, mtrans, col0, col1, col2, qlsq. cbn [qx qy qz qw vx vy vz r0 r1 r2].
      replace (- x * - x + - y * - y + - z * - z + w * w) with (x * x + y * y + z * z + w * w) by ring.
      f_equal; f_equal; ring. }
    done.
Qed.

(** * C55: matrices *)

(** Every rotation matrix comes back from the quaternion made of it, which has
    unit length. *)
Theorem C55_matrix_to_quaternion m : is_rotation (mvec m) →
  qlsq (to_quat m) = 1 ∧ to_matrix (to_quat m) = m ∧ ∀ v, rotate (to_quat m) v = mvec m v.
Proof.
  intros R. destruct (to_quat_ok m (rotation_rotm m R)) as [U E]. split_and!; [done..|].
  intros v. rewrite <- E at 2. symmetry. by apply to_matrix_rotate.
Qed.

(** ... and so a unit quaternion survives the round trip up to its sign. *)
Theorem C55_quaternion_round_trip q v : qlsq q = 1 →
  rotate (to_quat (to_matrix q)) v = rotate q v.
Proof.
  intros U. destruct (C55_matrix_to_quaternion (to_matrix q)) as (_ & _ & E).
  - apply to_matrix_rotation. intros ->. unfold qlsq in U. cbn [qx qy qz qw] in U. lra.
  - rewrite E. by apply to_matrix_rotate.
Qed.

(** Inverses: the inverse of a matrix whose determinant is not close to zero is
    its inverse; for the others the zero matrix is returned. *)
Theorem C55_inverse m :
  (eps < Rabs (det m) → mmul m (minverse m) = mid ∧ mmul (minverse m) m = mid) ∧
  (Rabs (det m) <= eps → minverse m = mat0).
Proof. split; [apply minverse_big|apply minverse_small]. Qed.

(** The inverse of symmetric matrices returns exactly on the symmetric matrices
    that have one, and returns it. *)
Theorem C55_symmetric_inverse m n :
  minverse_sym m = Ok n ↔ mtrans m = m ∧ det m ≠ 0 ∧ mmul m n = mid.
Proof. apply minverse_sym_ok. Qed.

(** The angles read from a rotation matrix rebuild it, and the matrix built from
    three angles is the product of the rotations about the axes. *)
Theorem C55_euler_angles m : is_rotation (mvec m) →
  rot_xyz (vx (euler_xyz m)) (vy (euler_xyz m)) (vz (euler_xyz m)) = m.
Proof. intros R. exact (euler_ok m (rotation_rotm m R)). Qed.
Theorem C55_euler_product x y z v :
  mvec (rot_xyz x y z) v = turn ex x (turn ey y (turn ez z v)) ∧ is_rotation (mvec (rot_xyz x y z)).
Proof.
  assert (∀ v, mvec (rot_xyz x y z) v = turn ex x (turn ey y (turn ez z v))) as E.
  { clear v. intros v. rewrite rot_xyz_mul.
    transitivity (mvec (rot_x x) (mvec (rot_y y) (mvec (rot_z z) v))).
    { generalize (rot_x x), (rot_y y), (rot_z z). vring. }
    assert (∀ u, mvec (rot_z z) u = turn ez z u) as -> by (clear; unfold rot_z, turn, ez; vring).
    assert (∀ u, mvec (rot_y y) u = turn ey y u) as -> by (clear; unfold rot_y, turn, ey; vring).
    clear. generalize (turn ey y (turn ez z v)). unfold rot_x, turn, ex. vring. }
  split; [done|].
  apply (is_rotation_ext _ (λ v, rotate (halfq ex x) (rotate (halfq ey y) (rotate (halfq ez z) v)))).
  - intros u. rewrite E. unfold halfq. rewrite !half_turn; [done|..]; unfold unit3, dot3, ex, ey, ez; cbn [vx vy vz]; ring.
  - destruct (rotate_rotation (qmul (halfq ex x) (qmul (halfq ey y) (halfq ez z)))) as (A & B & C & D).
    { repeat apply unit_mul; apply half_unit; unfold unit3, dot3, ex, ey, ez; cbn [vx vy vz]; ring. }
    apply (is_rotation_ext _ (rotate (qmul (halfq ex x) (qmul (halfq ey y) (halfq ez z))))); [|done].
    intros u. symmetry.
    rewrite rotate_mul, rotate_mul; [done|..]; repeat apply unit_mul; apply half_unit;
      unfold unit3, dot3, ex, ey, ez; cbn [vx vy vz]; ring.
Qed.

(** * C56: turning by an angle, spinning, and interpolating *)

(** The quaternion of an axis and an angle turns by that angle about that axis. *)
Theorem C56_axis_angle v a u : v ≠ vec0 →
  qlsq (quat_axis_angle v a) = 1 ∧ rotate (quat_axis_angle v a) u = turn (v / len v)%V a u.
Proof. intros N. destruct (axis_angle_ok v a N) as [A B]. by split. Qed.
Theorem C56_unit_axis_angle v a : dot3 v v = 1 →
  ∃ q, quat_axis_angle_unit v a = Ok q ∧ qlsq q = 1 ∧ ∀ u, rotate q u = turn v a u.
Proof. apply axis_angle_unit_ok. Qed.
(** The axis and angle read from a unit quaternion describe its turn, unless it
    is within the tolerance of doing nothing. *)
Theorem C56_axis_angle_back q u : qlsq q = 1 → eps < 1 - qw q * qw q →
  dot3 (quat_axis q) (quat_axis q) = 1 ∧ rotate q u = turn (quat_axis q) (quat_angle q) u.
Proof. apply axis_angle_back. Qed.

(** Advancing an orientation with an angular velocity turns it about the
    direction of the velocity by speed times time: exactly if the speed is at
    least 0.001, else within (speed * time)^5 / 1000. *)
Theorem C56_integrate q w dt : qlsq q = 1 → Rabs dt <= 1 →
  ∃ r a, integrate q w dt = Ok r ∧ qlsq r = 1 ∧
  Rabs (a - len w * dt) <= (len w * Rabs dt) ^ 5 / 1000 ∧
  (/ 1000 <= len w → a = len w * dt) ∧
  ∀ n v, dot3 n n = 1 → w = (len w * n)%V → rotate r v = turn n a (rotate q v).
Proof.
  intros U D. destruct (Rlt_dec (len w) (/ 1000)) as [L|L].
  - destruct (integrate_slow q w dt U L D) as (r & a & A & B & C & F). exists r, a. split_and!; try done. lra.
  - apply Rnot_lt_le in L. destruct (integrate_fast q w dt U L) as (r & A & B & C). exists r, (len w * dt).
    split_and!; try done.
    + rewrite Rminus_diag_eq, Rabs_R0 by done. apply Rmult_le_pos; [|lra]. apply pow_le.
      apply Rmult_le_pos; [apply len_nonneg|apply Rabs_pos].
    + intros n v Un En. rewrite C. f_equal.
      assert (len w ≠ 0) as Nz by lra. transitivity ((len w * n) / len w)%V; [by rewrite <- En|].
      generalize (len w), Nz. clear. intros l Nz. destruct n as [x y z]. unfold div3, scl. cbn [vx vy vz].
      f_equal; field; done.
Qed.

(** The shortest arc between unit vectors: the rotation carries the first to
    the second, about an axis orthogonal to both, by the angle between them;
    when they are opposite up to the tolerance, it is a half turn, carrying the
    first to its exact opposite. *)
Theorem C56_shortest_arc a b : dot3 a a = 1 → dot3 b b = 1 →
  ∃ q n t, shortest_arc a b = Ok q ∧ qlsq q = 1 ∧ dot3 n n = 1 ∧ dot3 n a = 0 ∧
    (∀ v, rotate q v = turn n t v) ∧ 0 <= t <= PI ∧
    (-1 + eps < dot3 a b → rotate q a = b ∧ cos t = dot3 a b) ∧
    (dot3 a b <= -1 + eps → rotate q a = (- a)%V ∧ t = PI).
Proof. apply shortest_arc_ok. Qed.

(** The tangents of a unit normal complete it to an orthonormal, right-handed
    frame, whose second axis is the normal. *)
Theorem C56_tangents n p q : dot3 n n = 1 → plane_space n = (p, q) →
  dot3 p p = 1 ∧ dot3 q q = 1 ∧ dot3 n p = 0 ∧ dot3 n q = 0 ∧ dot3 p q = 0 ∧ cross3 n p = q.
Proof. apply plane_space_ok. Qed.
Theorem C56_tangent_basis n : dot3 n n = 1 →
  mvec (make_tangent_basis n) ey = n ∧
  ∀ u v, dot3 (mvec (make_tangent_basis n) u) (mvec (make_tangent_basis n) v) = dot3 u v.
Proof.
  intros U. unfold make_tangent_basis. destruct (plane_space n) as [p q] eqn:E.
  destruct (plane_space_ok n p q U E) as (A & B & C & D & F & _). unfold unit3 in *. split.
  - clear. unfold mcols, mvec, ey. vring.
  - intros u v.
    transitivity (dot3 (vx u * p + vy u * n + vz u * q)%V (vx v * p + vy v * n + vz v * q)%V); [clear; unfold mcols, mvec; vring|].
    transitivity (vx u * vx v * dot3 p p + vy u * vy v * dot3 n n + vz u * vz v * dot3 q q
      + (vx u * vy v + vy u * vx v) * dot3 n p + (vy u * vz v + vz u * vy v) * dot3 n q
      + (vx u * vz v + vz u * vx v) * dot3 p q); [clear; vring|].
    rewrite A, B, C, D, F, U. clear. vring.
Qed.

(** The angle between two orientations is the angle of the turn from the first
    to the second; it is the smaller of the two possible angles exactly if
    their quaternions have a product that is not negative. *)
Theorem C56_angle_between q r : qlsq q = 1 → qlsq r = 1 →
  ∃ a n, angle_between q r = Ok a ∧ 0 <= a <= 2 * PI ∧ dot3 n n = 1 ∧
  (∀ v, rotate r v = turn n a (rotate q v)) ∧ (a <= PI ↔ 0 <= qdot q r).
Proof. apply angle_between_ok. Qed.
(** The same orientation, given by a quaternion and its opposite, is a full turn away. *)
Theorem C56_angle_between_refuted :
  ∃ q r, qlsq q = 1 ∧ qlsq r = 1 ∧ (∀ v, rotate q v = rotate r v) ∧ angle_between q r = Ok (2 * PI).
Proof.
  exists qid, (qscale (-1) qid). unfold qid, qscale, qlsq. cbn [qx qy qz qw]. split_and!; [lra..| |].
  - intros v. symmetry. apply (rotate_opp (Quat 0 0 0 1)).
  - unfold angle_between, qlsq, qdot. cbn [qx qy qz qw].
    match goal with |- context [sqrt ?e] => replace e with 1 by ring end. rewrite sqrt_1, Rabs_R1, (proj2 (rltb_true eps 1)) by (pose proof eps_small; lra).
    cbn [assert_ mbind res_bind]. f_equal.
    match goal with |- context [acos ?e] => replace e with (- (1)) by field end. rewrite acos_opp, acos_1. ring.
Qed.

(** Interpolating between two orientations turns at constant speed, along the
    shorter way, from the first to the second. *)
Theorem C56_slerp q r : qlsq q = 1 → qlsq r = 1 → Rabs (qdot q r) <= 1 - eps →
  ∃ n a, dot3 n n = 1 ∧ 0 <= a <= PI ∧ (∀ v, rotate r v = turn n a (rotate q v)) ∧
  ∀ s, ∃ t, slerp q r s = Ok t ∧ qlsq t = 1 ∧ ∀ v, rotate t v = turn n (s * a) (rotate q v).
Proof. apply slerp_ok. Qed.
(** Between orientations closer than the tolerance it does not move at all: even
    at the end it is still at the first one. *)
Theorem C56_slerp_refuted :
  ∃ q r, qlsq q = 1 ∧ qlsq r = 1 ∧ slerp q r 1 = Ok q ∧ ∃ v, rotate q v ≠ rotate r v.
Proof.
  set (t := / 10000).
  set (w := (1 - t * t) / (1 + t * t)). set (x := 2 * t / (1 + t * t)).
  assert (1 + t * t ≠ 0) as N by nra.
  assert (x * x + w * w = 1) as E. { unfold x, w. field. done. }
  assert (w = 99999999 / 100000001) as Ew. { unfold w, t. field. }
  exists qid, (Quat x 0 0 w). unfold qlsq, qid. cbn [qx qy qz qw]. split_and!; [lra|lra| |].
  - unfold slerp, qlsq, qdot. cbn [qx qy qz qw].
    replace ((0 * 0 + 0 * 0 + 0 * 0 + 1 * 1) * (x * x + 0 * 0 + 0 * 0 + w * w)) with 1 by lra.
    rewrite sqrt_1, (proj2 (rltb_true 0 1)) by lra. cbn [assert_ mbind res_bind].
    replace ((0 * x + 0 * 0 + 0 * 0 + 1 * w) / 1) with w by field.
    rewrite (Rabs_pos_eq w) by lra.
    destruct (Rlt_dec (1 - eps) w) as [_|H]; [done|]. exfalso. apply H. unfold eps. lra.
  - exists ey. intros H. apply (f_equal vz) in H. revert H.
    assert (0 < x) as Px. { unfold x, t. lra. }
    unfold rotate, cross3, add3, scl, ey. cbn [vx vy vz qx qy qz qw]. intros H.
    assert (0 < x * w) as P by (apply Rmult_lt_0_compat; lra). lra.
Qed.

(** * Concrete cases *)
Definition q345 : quat := Quat (3 / 5) 0 0 (4 / 5).
Example C54_ex_unit : qlsq q345 = 1.
Proof. unfold qlsq, q345. cbn [qx qy qz qw]. lra. Qed.
Example C54_ex_turn : rotate q345 ey = V3 0 (7 / 25) (24 / 25).
Proof. apply v3_eq; unfold rotate, q345, cross3, add3, scl, ey; cbn [vx vy vz qx qy qz qw]; lra. Qed.
Example C54_ex_world : to_world ey (V3 1 2 3) q345 = V3 1 (57 / 25) (99 / 25).
Proof. apply v3_eq; unfold to_world, rotate, q345, cross3, add3, scl, ey; cbn [vx vy vz qx qy qz qw]; lra. Qed.
Example C55_ex_rotation : is_rotation (mvec (to_matrix q345)).
Proof. apply to_matrix_rotation. intros H. injection H. lra. Qed.
Example C55_ex_inverse : eps < Rabs (det (mdiag (V3 2 3 4))).
Proof.
  unfold det, triple3, mdiag, cross3, dot3. cbn [r0 r1 r2 vx vy vz].
  rewrite Rabs_pos_eq by lra. pose proof eps_small. lra.
Qed.
Example C55_ex_singular : Rabs (det (mdiag (V3 2 3 0))) <= eps.
Proof.
  unfold det, triple3, mdiag, cross3, dot3. cbn [r0 r1 r2 vx vy vz].
  rewrite Rabs_pos_eq by lra. pose proof eps_pos. lra.
Qed.
Example C55_ex_sym : ∃ n, minverse_sym (Mat (V3 2 1 0) (V3 1 2 0) (V3 0 0 1)) = Ok n.
Proof.
  exists (Mat (V3 (2 / 3) (- (1 / 3)) 0) (V3 (- (1 / 3)) (2 / 3) 0) (V3 0 0 1)). apply minverse_sym_ok.
  unfold det, triple3, mtrans, mmul, mid, col0, col1, col2, cross3, dot3, ex, ey, ez. cbv zeta beta. cbn [r0 r1 r2 vx vy vz]. split_and!.
  - done.
  - lra.
  - apply m_eq; cbn [r0 r1 r2]; apply v3_eq; cbn [vx vy vz]; lra.
Qed.
Example C56_ex_back : eps < 1 - qw q345 * qw q345.
Proof. unfold q345. cbn [qw]. pose proof eps_small. lra. Qed.
Example C56_ex_spin : / 1000 <= len (V3 0 2 0) ∧ Rabs (/ 60) <= 1 ∧ len (V3 0 0 (/ 2000)) < / 1000.
Proof.
  unfold len, lsq, dot3. cbn [vx vy vz].
  replace (0 * 0 + 2 * 2 + 0 * 0) with (2 * 2) by ring.
  replace (0 * 0 + 0 * 0 + / 2000 * / 2000) with (/ 2000 * / 2000) by ring.
  rewrite !sqrt_square, Rabs_pos_eq by lra. lra.
Qed.
Example C56_ex_arc : dot3 ex ex = 1 ∧ dot3 ey ey = 1 ∧ -1 + eps < dot3 ex ey ∧ dot3 ex (- ex)%V <= -1 + eps.
Proof. unfold dot3, ex, ey, neg3. cbn [vx vy vz]. pose proof eps_small. pose proof eps_pos. lra. Qed.
Example C56_ex_slerp : Rabs (qdot qid q345) <= 1 - eps.
Proof. unfold qdot, qid, q345. cbn [qx qy qz qw]. rewrite Rabs_pos_eq by lra. pose proof eps_small. lra. Qed.

Print Assumptions C54_unit_quaternion_rotates.
Print Assumptions C54_matrix_of_quaternion.
Print Assumptions C54_scaled_quaternion_refuted.
Print Assumptions C54_frames.
Print Assumptions C55_matrix_to_quaternion.
Print Assumptions C55_quaternion_round_trip.
Print Assumptions C55_inverse.
Print Assumptions C55_symmetric_inverse.
Print Assumptions C55_euler_angles.
Print Assumptions C55_euler_product.
Print Assumptions C56_axis_angle.
Print Assumptions C56_unit_axis_angle.
Print Assumptions C56_axis_angle_back.
Print Assumptions C56_integrate.
Print Assumptions C56_shortest_arc.
Print Assumptions C56_tangents.
Print Assumptions C56_tangent_basis.
Print Assumptions C56_angle_between.
Print Assumptions C56_angle_between_refuted.
Print Assumptions C56_slerp.
Print Assumptions C56_slerp_refuted.
