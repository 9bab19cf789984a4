(** C79-C82: what rows of constraints demand, angles over turns, cones,
    position corrections. *)
From Verif Require Import Outcome BoxModel GeoModel RotSpec RotProofs RotProofs3 RotProofs5 RayProps SupProofs JacModel JacSpec.
From Verif Require Import JacProofs JacProofs2 JacProofs3 JacProofs4 JacProofs5 JacProps.
From Verif Require RowModel JointModel.
From Coq Require Import Reals Lra Psatz.
Local Open Scope R_scope.

(** * C79: demands *)
Section goals.
Context (j : joint) (imps : list R) (dt : R) (pA pB : RowModel.ptr) (A B : cbody)
  (c' : JointModel.config Rnum) (qs : list (JointModel.req Rnum)).
Context (Hdt : 0 < dt).
(** A point constraint asks for the speed that takes a fifth of the gap in a step. *)
Theorem C79_point tq i q :
  prepare_joint (JointModel.KPoint tq) j imps dt pA pB A B = Ok (c', qs) → qs !! i = Some q → (i < 3)%nat →
  dt * row_target q = - (dot3 (sub3 (pivot_a j A) (pivot_b j B)) (mrow mid i) / 5).
Proof using Hdt.
  intros H Hq Hi. destruct (point_rows _ _ _ _ _ _ _ _ _ _ _ _ H Hq Hi) as (_ & He & Hp).
  unfold row_target. rewrite He, Hp. field. lra.
Qed.
Theorem C79_distance q :
  prepare_joint JointModel.KDistance j imps dt pA pB A B = Ok (c', qs) → q ∈ qs →
  dt * row_target q = - (1 / 2 * (dsq (pivot_a j A) (pivot_b j B) - jt_dist j * jt_dist j) / 5).
Proof using Hdt.
  intros H Hq. destruct (distance_rows _ _ _ _ _ _ _ _ _ _ H Hq) as (_ & He & Hp).
  unfold row_target. rewrite He, Hp. field. lra.
Qed.
(** A contact lets separated bodies approach by a fifth of their distance, so
    that they do not pass through each other; touching ones not at all. *)
Theorem C79_contact o q :
  prepare_joint (JointModel.KContact o) j imps dt pA pB A B = Ok (c', qs) → q ∈ qs →
  (0 < JointModel.o_dist o → JointModel.o_dist o + dt * row_target q = 4 / 5 * JointModel.o_dist o) ∧
  (JointModel.o_dist o <= 0 → row_target q = 0).
Proof using Hdt.
  intros H Hq. destruct (contact_rows _ _ _ _ _ _ _ _ _ _ _ H Hq) as (_ & Hp & He).
  unfold row_target. rewrite He, Hp. destruct (Rlt_dec 0 (JointModel.o_dist o)) as [Hd|Hd].
  - split; [intros _; field; lra|]. intros. lra.
  - split; [lra|]. intros. ring.
Qed.
Theorem C79_hinge h :
  prepare_joint (JointModel.KHinge h) j imps dt pA pB A B = Ok (c', qs) →
  let x := track_angle (JointModel.h_angle h) (hinge_angle j A B) in
  let lo := JointModel.h_min h in let up := JointModel.h_max h in
  (lo < up → ∃ q, q ∈ qs ∧ qJ q = jturn (axis_a j A) (axis_a j A) ∧
     dt * - row_target q = (nearer lo up x - x) / 5 ∧ one_way lo up x q) ∧
  (0 < JointModel.h_stiff h → ∃ q, q ∈ qs ∧ qJ q = jturn (axis_a j A) (axis_a j A) ∧
     dt * - row_target q = (JointModel.h_rest h - x) / 5 ∧
     spring_limits (JointModel.h_stiff h * (x - JointModel.h_rest h) * dt) q) ∧
  (0 < JointModel.h_torque h → ∃ q, q ∈ qs ∧ qJ q = jturn (axis_a j A) (axis_a j A) ∧
     row_target q = jt_speed j / 5 ∧
     JointModel.q_lo q = - JointModel.q_up q ∧
     JointModel.q_up q = JointModel.h_torque h * dt +
       (if Rlt_dec 0 (JointModel.h_damp h)
        then Rabs (relative_speed (jturn (axis_a j A) (axis_a j A)) A B) * JointModel.h_damp h * dt else 0)).
Proof using Hdt. intros H. exact (proj2 (hinge_goals _ _ _ _ _ _ _ _ _ _ H Hdt)). Qed.
Theorem C79_generic l0 l1 l2 a0 a1 a2 k :
  prepare_joint (JointModel.KGeneric l0 l1 l2 a0 a1 a2) j imps dt pA pB A B = Ok (c', qs) → (k < 6)%nat →
  ∃ twist, twist_angle j A B = Ok twist ∧
  let x := dof_value j A B twist k in let d := dof_of l0 l1 l2 a0 a1 a2 k in
  let lo := JointModel.d_min d in let up := JointModel.d_max d in
  (JointModel.d_enabled d = true → lo < up → ((k < 3)%nat → lo < x < up) →
     ∃ q, q ∈ qs ∧ qJ q = dof_jac j A B k ∧
       dt * - row_target q = (if Nat.ltb k 3 then 9 / 10 else 1 / 5) * (nearer lo up x - x) ∧ one_way lo up x q) ∧
  (JointModel.d_enabled d = true → lo = up →
     ∃ q, q ∈ qs ∧ qJ q = dof_jac j A B k ∧
       dt * - row_target q = (if Nat.ltb k 3 then 0 else (0 - x) / 5) ∧
       JointModel.q_lo q = - large_scalar ∧ JointModel.q_up q = large_scalar) ∧
  (0 < JointModel.d_spring d →
     ∃ q, q ∈ qs ∧ qJ q = dof_jac j A B k ∧
       dt * - row_target q = (JointModel.d_rest d - x) / 5 ∧
       spring_limits (JointModel.d_spring d * (x - JointModel.d_rest d) * dt) q).
Proof using Hdt. intros H Hk. by eapply generic_goals. Qed.
End goals.

Definition motor : JointModel.hinge_cfg Rnum := JointModel.HingeCfg (N := Rnum) 0 0 0 0 1 0 0 0 0.
(** The motor of a hinge does not reach the configured speed: with [speed] 5, the
    only row about the axis asks for a relative speed of 1. *)
Theorem C79_motor_refuted : ∃ j A B c' qs q, jt_speed j = 5 ∧ unit3 (axis_a j A) ∧
  prepare_joint (JointModel.KHinge motor) j [] 1 (Some 0%nat) (Some 1%nat) A B = Ok (c', qs) ∧
  drop 5 qs = [q] ∧ row_target q = 1.
Proof.
  set (j := simple_joint vec0 vec0 mid 5). set (A := ball vec0 vec0 vec0).
  assert (Rows : ∀ imps dt g, ∃ t, drop 5 (JointModel.prep_hinge motor imps dt g).2 = [JointModel.sym_row g imps 8 t]).
  { intros imps dt g. unfold JointModel.prep_hinge. cbv zeta.
    assert (JointModel.h_has_limit motor = false) as -> by (apply rltb_false; cbn; lra).
    assert (JointModel.h_has_spring motor = false) as -> by (apply rltb_false; cbn; lra).
    assert (JointModel.h_has_torque motor = true) as ->.
    { unfold JointModel.h_has_torque. cbn. rewrite (proj2 (rltb_true 0 1)) by lra. done. }
    eexists. reflexivity. }
  destruct (Rows [] 1 (geo_hinge motor j 1 A A)) as [t Ht].
  assert (Ex : ∃ c' qs, prepare_joint (JointModel.KHinge motor) j [] 1 (Some 0%nat) (Some 1%nat) A A = Ok (c', qs)).
  { unfold prepare_joint. cbn [geo_of mbind res_bind]. unfold JointModel.prepare.
    destruct (JointModel.prep_hinge _ _ _ _) as [h' l]. by eexists _, _. }
  destruct Ex as (c' & qs & H). pose proof H as H2. apply hinge_prepared in H2 as (h' & H2 & _).
  apply (f_equal snd) in H2. cbn [snd] in H2. subst qs.
  eexists j, A, A, c', _, _. split; [done|]. split.
  { unfold axis_a. cbn [A ball cb_orn]. rewrite rotate_qid. unfold unit3, dot3; cbn. ring. }
  split; [exact H|]. split; [exact Ht|].
  unfold row_target. cbn. unfold default_erp. lra.
Qed.
(** A locked angle is not driven to the value it is locked at: the bodies are at
    the swing angle 0, the lock at 1/2, and the row asks for no motion. *)
Theorem C79_locked_refuted : ∃ (a1 : JointModel.dof_cfg Rnum) j A B c' qs q,
  JointModel.d_enabled a1 = true ∧ JointModel.d_min a1 = 1 / 2 ∧ JointModel.d_max a1 = 1 / 2 ∧ swing_angle j A B 1 = 0 ∧
  prepare_joint (JointModel.KGeneric no_dof no_dof no_dof no_dof a1 no_dof) j [] 1 (Some 0%nat) (Some 1%nat) A B = Ok (c', qs) ∧
  q ∈ qs ∧ qJ q = dof_jac j A B 4 ∧ row_target q = 0.
Proof.
  set (j := simple_joint vec0 vec0 mid 0). set (A := ball vec0 vec0 vec0).
  assert (Ea : axis_a j A = ex). { unfold axis_a; cbn. rewrite rotate_qid. apply v3_eq; reflexivity. }
  assert (Eb : axis_b j A = ex). { unfold axis_b; cbn. rewrite rotate_qid. apply v3_eq; reflexivity. }
  assert (Hu : unit3 ex) by (unfold unit3, dot3, ex; cbn; ring).
  destruct (generic_ok no_dof no_dof no_dof no_dof (locked (1 / 2)) no_dof j [] 1 (Some 0%nat) (Some 1%nat) A A) as [qs Hqs].
  { by rewrite Ea. } { by rewrite Eb. } { repeat constructor; cbn; lra. }
  assert (Hs : swing_angle j A A 1 = 0).
  { unfold swing_angle. rewrite Eb.
    assert (dot3 ex (other_axis j A 1) = 0) as ->.
    { unfold other_axis. cbn. rewrite rotate_qid. unfold dot3, ex; cbn. ring. }
    rewrite Rmin_right, Rmax_right by lra. rewrite acos_0. lra. }
  destruct (generic_goals _ _ _ _ _ _ _ _ _ _ _ _ _ _ _ Hqs ltac:(lra) 4%nat ltac:(lia)) as (tw & _ & _ & HE & _).
  destruct (HE eq_refl eq_refl) as (q & Hq & HJ & Ht & _).
  exists (locked (1 / 2)), j, A, A. eexists _, qs, q. split; [done|]. split; [done|]. split; [done|]. split; [exact Hs|].
  split; [exact Hqs|]. split; [done|]. split; [done|].
  cbn [Nat.ltb Nat.leb] in Ht. change (dof_value j A A tw 4) with (swing_angle j A A 1) in Ht. rewrite Hs in Ht. lra.
Qed.
Example C79_case : ∃ c' qs q, let j := simple_joint ex ey mid 0 in
  prepare_joint (JointModel.KPoint (N := Rnum) 0) j [] (1 / 10) (Some 0%nat) (Some 1%nat) (ball vec0 vec0 vec0) (ball ex vec0 vec0) = Ok (c', qs) ∧
  qs !! 1%nat = Some q ∧ 0 < 1 / 10 ∧ row_target q = 2.
Proof.
  cbv zeta. eexists _, _, _. split; [reflexivity|]. split; [reflexivity|]. split; [lra|].
  match goal with |- row_target ?q = _ =>
    assert (Hq := C79_point (simple_joint ex ey mid 0) [] (1 / 10) (Some 0%nat) (Some 1%nat) (ball vec0 vec0 vec0) (ball ex vec0 vec0)
      _ _ ltac:(lra) (0 : RowModel.nt Rnum) 1 q eq_refl eq_refl ltac:(lia)) end.
  destruct (pivots_ball ex ey mid 0 vec0 vec0 vec0) as [Pa _].
  destruct (pivots_ball ex ey mid 0 ex vec0 vec0) as [_ Pb].
  assert (E : dot3 (sub3 (add3 vec0 ex) (add3 ex ey)) (mrow mid 1) = -1).
  { unfold dot3, sub3, add3, vec0, ex, ey; cbn. ring. }
  apply (Rmult_eq_reg_l (1 / 10)); [|lra]. etransitivity; [exact Hq|]. rewrite Pa, Pb, E. lra.
Qed.

(** * C80: angles over turns *)
(** A step keeps the angle congruent to the measured one and moves it by at most
    half a turn. *)
Theorem C80_step previous current :
  Rabs current <= PI →
  same_angle (track_angle previous current) current ∧ Rabs (track_angle previous current - previous) <= PI.
Proof.
  intros H. destruct (delta_spec previous current H) as [H1 H2]. unfold track_angle. split; [done|].
  by replace (previous + angle_delta previous current - previous) with (angle_delta previous current) by ring.
Qed.
(** Over any number of steps, each of less than half a turn, the angle is exact. *)
Theorem C80_turns (measured true_angle : nat → R) :
  (∀ n, Rabs (measured n) <= PI) →
  (∀ n, same_angle (measured n) (true_angle (S n))) →
  (∀ n, Rabs (true_angle (S n) - true_angle n) < PI) →
  ∀ n, tracked measured (true_angle 0%nat) n = true_angle n.
Proof. exact (tracked_exact measured true_angle). Qed.
(** The constraint keeps that angle, and what it measures is the direction of B
    seen from A. *)
Theorem C80_hinge h j imps dt pA pB A B c' qs :
  prepare_joint (JointModel.KHinge h) j imps dt pA pB A B = Ok (c', qs) → 0 < dt →
  JointModel.h_min h < JointModel.h_max h ∨ 0 < JointModel.h_stiff h →
  c' = JointModel.KHinge (JointModel.set_h_angle h (track_angle (JointModel.h_angle h) (hinge_angle j A B))).
Proof. intros H Hdt. exact (proj1 (hinge_goals _ _ _ _ _ _ _ _ _ _ H Hdt)). Qed.
Theorem C80_cv lo up x j A B x' AB :
  solve_cv lo up x j A B = Ok (x', AB) → lo < up →
  ∃ measured, relative_angle j (sb_orn A) (sb_orn B) = Ok measured ∧ Rabs measured <= PI ∧ x' = track_angle x measured.
Proof.
  unfold solve_cv. intros H Hl. rewrite (proj2 (rltb_true _ _) Hl) in H.
  apply bind_ok in H as (m & Hm & H). apply bind_ok in H as (AB1 & _ & H). apply bind_ok in H as (AB2 & _ & H).
  injection H as <- _. exists m. split; [done|]. split; [|done].
  unfold relative_angle in Hm. apply bind_ok in Hm as (arc & _ & Hm). injection Hm as <-. apply atan2_range.
Qed.
Theorem C80_measured j A B :
  frame_ok (jt_fa j) → frame_ok (jt_fb j) → qlsq (cb_orn A) = 1 → qlsq (cb_orn B) = 1 →
  axis_b j B = axis_a j A →
  let th := hinge_angle j A B in
  Rabs th <= PI ∧
  rotate (cb_orn B) (col1 (jt_fb j)) =
    add3 (scl (cos th) (rotate (cb_orn A) (col1 (jt_fa j)))) (scl (sin th) (rotate (cb_orn A) (col2 (jt_fa j)))).
Proof.
  intros (A0 & A1 & A2 & A3 & A4 & A5) (B0 & B1 & B2 & B3 & B4 & B5) UA UB Hal th.
  split; [apply atan2_range|].
  set (p := rotate (cb_orn A) (col1 (jt_fa j))). set (q := rotate (cb_orn A) (col2 (jt_fa j))).
  set (a := axis_a j A). set (b := rotate (cb_orn B) (col1 (jt_fb j))).
  assert (Ha : unit3 a) by (by apply unit_rotate). assert (Hbu : unit3 b) by (by apply unit_rotate).
  assert (H1 : cross3 a p = q) by (unfold a, p, q, axis_a; by rewrite <- rotate_cross, A3).
  assert (H2 : cross3 p q = a) by (unfold a, p, q, axis_a; by rewrite <- rotate_cross, A4).
  assert (H3 : cross3 q a = p) by (unfold a, p, q, axis_a; by rewrite <- rotate_cross, A5).
  assert (Hb : dot3 a b = 0).
  { unfold a, b. rewrite <- Hal. unfold axis_b. rewrite rotate_dot by done. rewrite <- B4.
    unfold dot3, cross3; cbn [vx vy vz]; ring. }
  destruct (plane_cross a p q b Ha H1 H2 H3 Hb) as [Hp Hq].
  assert (E : b = add3 (scl (dot3 p b) p) (scl (dot3 q b) q)).
  { transitivity (sub3 (scl (dot3 a a) b) (scl (dot3 a b) a)).
    { rewrite Hb, Ha. apply v3_eq; unfold sub3, scl; cbn [vx vy vz]; ring. }
    transitivity (cross3 (cross3 a b) a).
    { apply v3_eq; unfold cross3, sub3, scl, dot3; cbn [vx vy vz]; ring. }
    assert (cross3 a b = sub3 (scl (dot3 p b) q) (scl (dot3 q b) p)) as ->.
    { transitivity (cross3 (cross3 p q) b); [by rewrite H2|].
      apply v3_eq; unfold cross3, sub3, scl, dot3; cbn [vx vy vz]; ring. }
    transitivity (add3 (scl (dot3 p b) (cross3 q a)) (scl (dot3 q b) (cross3 a p))).
    { apply v3_eq; unfold cross3, add3, sub3, scl; cbn [vx vy vz]; ring. }
    by rewrite H1, H3. }
  assert (Hpp : dot3 p p = 1) by (by apply unit_rotate).
  assert (Hqq : dot3 q q = 1) by (by apply unit_rotate).
  assert (Hpq : dot3 p q = 0).
  { rewrite <- H3. unfold dot3, cross3; cbn [vx vy vz]; ring. }
  assert (Hsq : dot3 p b * dot3 p b + dot3 q b * dot3 q b = 1 * 1).
  { transitivity (dot3 b b); [|rewrite Hbu; ring].
    pose proof (f_equal (λ v, dot3 v b) E) as E2. cbn beta in E2. rewrite dot_add_l, !dot_scl_l in E2. by rewrite E2. }
  destruct (atan2_spec (dot3 p b) (dot3 q b) 1 ltac:(lra) Hsq) as [Hc Hs].
  assert (Eth : th = atan2 (dot3 q b) (dot3 p b)).
  { unfold th, hinge_angle. fold b. rewrite !(dot_comm b). done. }
  rewrite Eth, Hc, Hs. unfold Rdiv. rewrite Rinv_1, !Rmult_1_r. exact E.
Qed.
(** A turn of three quarters in one step is taken for a quarter the other way. *)
Theorem C80_fast_refuted : ∃ true_angle measured : R,
  Rabs measured <= PI ∧ same_angle measured true_angle ∧ true_angle = 3 * PI / 2 ∧ track_angle 0 measured = - PI / 2.
Proof.
  pose proof PI_RGT_0 as Hpi. exists (3 * PI / 2), (- PI / 2). split; [split_Rabs; lra|].
  split; [exists (-1)%Z; lra|]. split; [done|].
  destruct (C80_step 0 (- PI / 2) ltac:(split_Rabs; lra)) as [(k & Hk) Hd].
  rewrite Rminus_0_r in Hd. rewrite Hk in *.
  assert (k = 0%Z) as ->; [|lra].
  destruct (Z.le_gt_cases k (-1)) as [H|H].
  { apply IZR_le in H. split_Rabs; nra. }
  destruct (Z.le_gt_cases 1 k) as [H'|H']; [|lia].
  apply IZR_le in H'. split_Rabs; nra.
Qed.
Example C80_case : let t n := 2 * INR n in
  ∀ n, Rabs (t (S n) - t n) < PI ∧ Rabs (atan2 (sin (t (S n))) (cos (t (S n)))) <= PI.
Proof.
  intros t n. split; [|apply atan2_range]. unfold t. rewrite S_INR.
  replace (2 * (INR n + 1) - 2 * INR n) with 2 by ring. rewrite Rabs_pos_eq by lra. pose proof PI2_1. lra.
Qed.

(** * C81: cones *)
(** The error of a cone constraint is, up to a factor, how far outside of the cone
    the pivot is; it is measured at a point on the cone; the bodies are pushed
    along the direction in which the distance grows fastest. *)
Theorem C81_error t0 t1 p e pt n :
  0 < t0 → 0 < t1 → eps < vy p / t0 * (vy p / t0) + vz p / t1 * (vz p / t1) →
  cone_frame p t0 t1 = Ok (e, pt, n) →
  e = outside_cone t0 t1 p / sqrt 2.
Proof. intros H0 H1 He H. by destruct (cone_frame_spec _ _ _ _ _ _ H0 H1 He H) as [? _]. Qed.
Theorem C81_direction t0 t1 p e pt n :
  0 < t0 → 0 < t1 → eps < vy p / t0 * (vy p / t0) + vz p / t1 * (vz p / t1) →
  cone_frame p t0 t1 = Ok (e, pt, n) →
  - sqrt (vy p / t0 * (vy p / t0) + vz p / t1 * (vz p / t1)) < vx p →
  outside_cone t0 t1 pt = 0 ∧ ∃ g, is_gradient (outside_cone t0 t1) p g ∧ 0 < len g ∧ n = div3 g (len g).
Proof.
  intros H0 H1 He H Hx. pose proof eps_pos. destruct (cone_frame_spec _ _ _ _ _ _ H0 H1 He H) as (_ & -> & Hn).
  split; [apply point_on_cone; unfold cone_s; lra|].
  exists (cone_grad t0 t1 p). split; [apply cone_grad_ok; [by apply Rgt_not_eq|by apply Rgt_not_eq|lra]|]. split.
  { unfold len. apply sqrt_lt_R0. unfold cone_grad, lsq, dot3. cbn [vx vy vz]. nra. }
  destruct Hn as [[_ Hn]|[Hn _]]; [done|]. unfold cone_s in Hn. lra.
Qed.
(** Behind the tip the direction is reversed. *)
Theorem C81_behind t0 t1 p e pt n :
  0 < t0 → 0 < t1 → eps < vy p / t0 * (vy p / t0) + vz p / t1 * (vz p / t1) →
  cone_frame p t0 t1 = Ok (e, pt, n) →
  vx p < - sqrt (vy p / t0 * (vy p / t0) + vz p / t1 * (vz p / t1)) →
  0 < e ∧ ∃ g, is_gradient (outside_cone t0 t1) p g ∧ 0 < len g ∧ n = neg3 (div3 g (len g)).
Proof.
  intros H0 H1 He H Hx. pose proof eps_pos. destruct (cone_frame_spec _ _ _ _ _ _ H0 H1 He H) as (Ee & _ & Hn).
  split.
  { rewrite Ee. apply Rdiv_lt_0_compat; [|apply sqrt_lt_R0; lra]. unfold outside_cone.
    pose proof (sqrt_pos (vy p / t0 * (vy p / t0) + vz p / t1 * (vz p / t1))). lra. }
  exists (cone_grad t0 t1 p). split; [apply cone_grad_ok; [by apply Rgt_not_eq|by apply Rgt_not_eq|lra]|]. split.
  { unfold len. apply sqrt_lt_R0. unfold cone_grad, lsq, dot3. cbn [vx vy vz]. nra. }
  destruct Hn as [[Hn _]|[_ Hn]]; [|done]. unfold cone_s in Hn. lra.
Qed.

(** The pivot (-10, 1, 0), outside of the cone with half angles of an eighth of a
    turn, is pushed further away. *)
Lemma normalize3_def v : tiny < len v → normalize3 v = Ok (div3 v (len v)).
Proof. intros H. unfold normalize3. by rewrite (proj2 (rltb_true _ _) H). Qed.
Theorem C81_behind_refuted : ∃ e pt n, cone_frame (V3 (-10) 1 0) 1 1 = Ok (e, pt, n) ∧
  0 < e ∧ ∃ g, is_gradient (outside_cone 1 1) (V3 (-10) 1 0) g ∧ 0 < len g ∧ n = neg3 (div3 g (len g)).
Proof.
  assert (Ex : ∃ e pt n, cone_frame (V3 (-10) 1 0) 1 1 = Ok (e, pt, n)).
  { assert (Ht : tiny < 1) by (pose proof tiny_pos; unfold tiny in *; lra).
    assert (L : ∀ v, 1 <= lsq v → tiny < len v).
    { intros v Hv. apply (Rlt_le_trans _ 1); [done|]. replace 1 with (sqrt 1) by apply sqrt_1. unfold len. by apply sqrt_le_1_alt. }
    unfold cone_frame, rdiv. destruct (Req_EM_T 1 0) as [|_]; [lra|]. cbn [mbind res_bind].
    replace (1 / 1) with 1 by field. destruct (Req_EM_T 1 0) as [|_]; [lra|]. cbn [mbind res_bind].
    unfold mul3. cbn [vx vy vz].
    pose proof eps_small.
    replace (1 * 1 * (1 * 1) + 0 * 1 * (0 * 1)) with 1 by ring. rewrite (proj2 (rltb_true _ _)) by lra.
    rewrite sqrt_1.
    assert (L2 : len (V3 (Ropp 1) (1 * 1) (0 * 1)) = sqrt 2).
    { unfold len, lsq, dot3. cbn [vx vy vz]. f_equal. ring. }
    rewrite (normalize3_def (V3 (Ropp 1) (1 * 1) (0 * 1))). 2:{ apply L. unfold lsq, dot3. cbn [vx vy vz]. lra. }
    cbn [mbind res_bind]. rewrite L2.
    assert (L1 : len (V3 0 (- (0 * 1)) (1 * 1)) = 1).
    { unfold len. replace (lsq _) with 1; [apply sqrt_1|]. unfold lsq, dot3. cbn [vx vy vz]. ring. }
    rewrite (normalize3_def (V3 0 (- (0 * 1)) (1 * 1))). 2:{ apply L. unfold lsq, dot3. cbn [vx vy vz]. lra. }
    cbn [mbind res_bind]. rewrite L1.
    assert (S : sqrt 2 * sqrt 2 = 2) by (apply sqrt_sqrt; lra).
    assert (S0 : 0 < sqrt 2) by (apply sqrt_lt_R0; lra).
    match goal with |- context [normalize3 ?v] => assert (Et : v = ez) end.
    { apply v3_eq; unfold div3; cbn [vx vy vz ez]; field. }
    rewrite Et, (normalize3_def ez). 2:{ apply L. unfold lsq, dot3, ez. cbn [vx vy vz]. lra. }
    cbn [mbind res_bind].
    match goal with |- context [normalize3 ?v] => rewrite (normalize3_def v); [by eexists _, _, _|] end.
    apply L. assert (Ez : div3 ez (len ez) = ez).
    { replace (len ez) with 1; [apply v3_eq; unfold div3, ez; cbn [vx vy vz]; field|].
      unfold len. replace (lsq ez) with 1; [by rewrite sqrt_1|]. unfold lsq, dot3, ez. cbn [vx vy vz]. ring. }
    rewrite Ez. unfold cross3, lsq, dot3, div3, scl, ez. cbn [vx vy vz].
    set (k := / sqrt 2). assert (K : k * k = 1 / 2).
    { subst k. rewrite <- Rinv_mult, S. lra. }
    unfold Rdiv. fold k. rewrite Rinv_1. ring_simplify.
    replace (k ^ 4) with (k * k * (k * k)) by ring. rewrite K. lra. }
  destruct Ex as (e & pt & n & H). exists e, pt, n. split; [done|]. pose proof eps_small.
  eapply C81_behind; [lra|lra| |exact H|]; cbn [vx vy vz].
  - lra.
  - replace (1 / 1 * (1 / 1) + 0 / 1 * (0 / 1)) with 1 by field. rewrite sqrt_1. lra.
Qed.

(** * C82: position corrections *)
Theorem C82_fair :
  (∀ j A B A' B', solve_hinge j A B = Ok (A', B') → fair A B A' B') ∧
  (∀ lo up x j A B x' A' B', solve_cv lo up x j A B = Ok (x', (A', B')) → fair A B A' B') ∧
  (∀ l0 l1 l2 j A B A' B', solve_generic l0 l1 l2 j A B = Ok (A', B') → fair A B A' B') ∧
  (∀ pa pb local normal at_ A B n d A' B',
     solve_contact pa pb local normal at_ A B = Ok (n, d, (A', B')) → fair A B A' B').
Proof.
  split; [exact hinge_fair|]. split; [exact cv_fair|]. split; [exact generic_fair|]. exact contact_fair.
Qed.
Theorem C82_amount J e A B A' B' :
  solve_position J e A B = Ok (A', B') →
  ∃ wA wB : v3,
    (∃ l, 0 < l ∧ sb_orn A' = qdiv (qadd (sb_orn A) (quat_derivative (sb_orn A) wA)) l) ∧
    (∃ l, 0 < l ∧ sb_orn B' = qdiv (qadd (sb_orn B) (quat_derivative (sb_orn B) wB)) l) ∧
    dot3 (ja J) (sub3 (sb_pos A') (sb_pos A)) + dot3 (jb J) wA +
    dot3 (jc J) (sub3 (sb_pos B') (sb_pos B)) + dot3 (jd J) wB = e / 5.
Proof. exact (solve_amount J e A B A' B'). Qed.
Theorem C82_join pa pb A B A' B' :
  solve_join pa pb A B = Ok (A', B') → placed A → placed B →
  sb_I A = Mat vec0 vec0 vec0 → sb_I B = Mat vec0 vec0 vec0 →
  let gap A B := sub3 (to_world pa (s_origin A) (sb_orn A)) (to_world pb (s_origin B) (sb_orn B)) in
  eps < len (gap A B) → gap A' B' = scl (4 / 5) (gap A B).
Proof. exact (join_amount pa pb A B A' B'). Qed.
Theorem C82_contact pa pb local normal A B n d A' B' :
  solve_contact pa pb local normal Loose A B = Ok (n, d, (A', B')) → placed A → placed B →
  sb_I A = Mat vec0 vec0 vec0 → sb_I B = Mat vec0 vec0 vec0 → lsq normal = 1 →
  let depth A B := dot3 (sub3 (to_world pa (s_origin A) (sb_orn A)) (to_world pb (s_origin B) (sb_orn B))) normal in
  d = depth A B ∧ (- eps < d → A' = A ∧ B' = B) ∧ (d <= - eps → depth A' B' = 4 / 5 * d).
Proof. exact (contact_amount pa pb local normal A B n d A' B'). Qed.
Theorem C82_inside d i j A B A' B' :
  solve_linear d i j A B = Ok (A', B') → placed A → placed B → inertia_placed A → inertia_placed B →
  let x := dot3 (sub3 (to_world (jt_pb j) (s_origin B) (sb_orn B)) (to_world (jt_pa j) (s_origin A) (sb_orn A)))
             (rotate (sb_orn A) (mcol (jt_fa j) i)) in
  JointModel.d_min d <= x <= JointModel.d_max d →
  sb_pos A' = sb_pos A ∧ sb_pos B' = sb_pos B ∧ sb_orn A' = sb_orn A ∧ sb_orn B' = sb_orn B.
Proof. exact (linear_inside d i j A B A' B'). Qed.

Definition still (pos : v3) : sbody := SBody None vec0 pos qid 1 (Mat vec0 vec0 vec0) (Mat vec0 vec0 vec0).
(** Joints with a twist cannot be used between bodies that do not rotate: the
    correction divides by zero. *)
Theorem C82_no_rotation_refuted : ∃ j A B, placed A ∧ placed B ∧ inertia_placed A ∧ inertia_placed B ∧
  sb_im A = 1 ∧ sb_im B = 1 ∧ solve_cv 0 0 0 j A B = UB.
Proof.
  set (j := simple_joint vec0 vec0 mid 0). exists j, (still vec0), (still vec0).
  assert (P : placed (still vec0)). { split; [apply unit_qid|]. done. }
  assert (I : inertia_placed (still vec0)).
  { intros v. cbn [still sb_I sb_Il sb_orn]. by rewrite !mvec_zero, rotate_qid. }
  split; [done|]. split; [done|]. split; [done|]. split; [done|]. split; [done|]. split; [done|].
  unfold solve_cv, relative_angle. cbn [still sb_orn].
  assert (Eu : ∀ m, jt_fa j = m → unit3 (rotate qid (col0 m))).
  { intros m <-. rewrite rotate_qid. unfold unit3, dot3. cbn. ring. }
  destruct (shortest_arc_ok (rotate qid (col0 (jt_fb j))) (rotate qid (col0 (jt_fa j)))) as (q & n & t & -> & _);
    [by apply Eu|by apply Eu|].
  cbn [mbind res_bind]. unfold solve_position at 1, jmj. cbn [still sb_im sb_I jturn ja jb jc jd].
  rewrite !mvec_zero. unfold rdiv.
  match goal with |- context [Req_EM_T ?x 0] => replace x with 0 end.
  - destruct (Req_EM_T 0 0); [done|]. done.
  - unfold dot3, vec0; cbn. ring.
Qed.
Example C82_case : ∃ A' B', solve_contact vec0 vec0 ex ex Loose (still (V3 (-5) 0 0)) (still vec0) = Ok (ex, -5, (A', B')) ∧
  placed (still (V3 (-5) 0 0)) ∧ placed (still vec0) ∧ lsq ex = 1.
Proof.
  set (A := still (V3 (-5) 0 0)). set (B := still vec0).
  assert (Cb : ∀ p c l a, ∃ b', correct_body c l a (still p) = Ok b').
  { intros p c l a. unfold correct_body. cbn [still sb_I sb_orn]. rewrite mvec_zero, scl_vec0, qspin_zero.
    unfold qnormalize. rewrite (qlen_unit _ unit_qid). pose proof eps_small.
    rewrite (proj2 (rltb_true _ _)) by lra. eexists. reflexivity. }
  unfold solve_contact. cbv zeta.
  assert (Ed : dot3 (sub3 (to_world vec0 (s_origin A) (sb_orn A)) (to_world vec0 (s_origin B) (sb_orn B))) ex = -5).
  { unfold to_world, s_origin. cbn [A B still sb_origin sb_orn sb_pos]. rewrite rotate_qid.
    unfold dot3, sub3, add3, vec0, ex; cbn. ring. }
  rewrite Ed. pose proof eps_small. rewrite (proj2 (rltb_false _ _)) by lra.
  unfold solve_position, rdiv.
  destruct (Req_EM_T _ 0) as [Hz|_].
  { exfalso. revert Hz. unfold jmj. cbn [A B still sb_I sb_im jpull ja jb jc jd]. rewrite !mvec_zero.
    unfold dot3, neg3, scl, vec0, ex; cbn. lra. }
  cbn [mbind res_bind].
  match goal with |- context [correct_body ?c ?l ?a A] => destruct (Cb (V3 (-5) 0 0) c l a) as [A' HA]; fold A in HA; rewrite HA end.
  cbn [mbind res_bind].
  match goal with |- context [correct_body ?c ?l ?a B] => destruct (Cb vec0 c l a) as [B' HB]; fold B in HB; rewrite HB end.
  cbn [mbind res_bind]. exists A', B'. split; [done|]. split; [|split].
  - split; [apply unit_qid|done].
  - split; [apply unit_qid|done].
  - unfold lsq, dot3, ex; cbn. ring.
Qed.

Print Assumptions C79_point.
Print Assumptions C79_distance.
Print Assumptions C79_contact.
Print Assumptions C79_hinge.
Print Assumptions C79_generic.
Print Assumptions C79_motor_refuted.
Print Assumptions C79_locked_refuted.
Print Assumptions C80_step.
Print Assumptions C80_turns.
Print Assumptions C80_hinge.
Print Assumptions C80_cv.
Print Assumptions C80_measured.
Print Assumptions C80_fast_refuted.
Print Assumptions C81_error.
Print Assumptions C81_direction.
Print Assumptions C81_behind.
Print Assumptions C81_behind_refuted.
Print Assumptions C82_fair.
Print Assumptions C82_amount.
Print Assumptions C82_join.
Print Assumptions C82_contact.
Print Assumptions C82_inside.
Print Assumptions C82_no_rotation_refuted.
