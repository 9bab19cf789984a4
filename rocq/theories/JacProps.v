(** C77-C82: what constraints do to momentum, what their rows measure and demand,
    angles of joints, cones, position corrections. *)
From Verif Require Import Outcome BoxModel GeoModel RotSpec RotProofs RotProofs3 RotProofs5 RayProps SupProofs JacModel JacSpec.
From Verif Require Import JacProofs JacProofs2 JacProofs3 JacProofs4 JacProofs5.
From Verif Require RowModel JointModel.
From Coq Require Import Reals Lra Psatz.
Local Open Scope R_scope.

(** ** Bodies and joints for the cases *)
Definition ball (pos lin ang : v3) : cbody := CBody pos pos qid lin ang 1 mid.
Lemma ball_mass pos lin ang : has_mass (ball pos lin ang) 1 mid.
Proof.
  split; [cbn; ring|]. intros v. cbn [ball cb_I].
  apply v3_eq; unfold mvec, mid, ex, ey, ez, dot3; cbn [r0 r1 r2 vx vy vz]; ring.
Qed.
Definition simple_joint (pa pb : v3) (fb : mat) (speed : R) : joint :=
  Joint pa pb mid fb ex 1 1 1 speed ey vec0 vec0 (λ _, 0).
Definition no_dof : JointModel.dof_cfg Rnum := JointModel.DofCfg (N := Rnum) false 0 0 0 0 0 0 0 0.
Definition locked (a : R) : JointModel.dof_cfg Rnum := JointModel.DofCfg (N := Rnum) true a a 0 0 0 0 0 0.
Lemma pivots_ball pa pb fb s p l a : pivot_a (simple_joint pa pb fb s) (ball p l a) = add3 p pa ∧
  pivot_b (simple_joint pa pb fb s) (ball p l a) = add3 p pb.
Proof. split; unfold pivot_a, pivot_b, to_world; cbn; by rewrite rotate_qid. Qed.
Lemma generic_ok l0 l1 l2 a0 a1 a2 j imps dt pA pB A B :
  unit3 (axis_a j A) → unit3 (axis_b j B) →
  Forall (λ d : JointModel.dof_cfg Rnum, JointModel.d_min (N := Rnum) d <= JointModel.d_max (N := Rnum) d) [l0; l1; l2; a0; a1; a2] →
  ∃ qs, prepare_joint (JointModel.KGeneric l0 l1 l2 a0 a1 a2) j imps dt pA pB A B =
          Ok (JointModel.KGeneric l0 l1 l2 a0 a1 a2, qs).
Proof.
  intros Ha Hb HF. unfold prepare_joint. cbn [geo_of]. unfold geo_generic, twist_angle.
  destruct (shortest_arc_ok _ _ Hb Ha) as (q & n & t & -> & _).
  cbn [mbind res_bind]. unfold JointModel.prepare.
  match goal with |- context [JointModel.prep_generic _ _ _ _ _ _ _ _ ?g] => generalize g end. intros g.
  assert (P : ∀ d i, d ∈ [l0; l1; l2; a0; a1; a2] → ∃ rows, JointModel.prep_dof d i imps dt g = Ok rows).
  { intros d i Hd. rewrite Forall_forall in HF. specialize (HF d Hd). cbn in HF.
    unfold JointModel.prep_dof. cbv zeta.
    assert ((if JointModel.d_enabled d then assert_ (negb (RowModel.nltb (JointModel.d_max d) (JointModel.d_min d))) else Ok tt) = Ok tt) as ->.
    { destruct (JointModel.d_enabled d); [|done]. cbn [Rnum RowModel.nltb].
      by rewrite (proj2 (rltb_false _ _) HF). }
    eexists. reflexivity. }
  unfold JointModel.prep_generic.
  destruct (P l0 0%nat) as [? ->]; [set_solver|]. destruct (P l1 4%nat) as [? ->]; [set_solver|].
  destruct (P l2 8%nat) as [? ->]; [set_solver|]. destruct (P a0 12%nat) as [? ->]; [set_solver|].
  destruct (P a1 16%nat) as [? ->]; [set_solver|]. destruct (P a2 20%nat) as [? ->]; [set_solver|].
  eexists. reflexivity.
Qed.

(** * C77: momentum *)
Theorem C77_linear c j imps dt pA pB A B c' qs q J imp mA IA mB IB :
  prepare_joint c j imps dt pA pB A B = Ok (c', qs) → q ∈ qs → J ∈ row_jacs q →
  has_mass A mA IA → has_mass B mB IB →
  add3 (linear_momentum (push imp J A B).1 mA) (linear_momentum (push imp J A B).2 mB)
  = add3 (linear_momentum A mA) (linear_momentum B mB).
Proof. intros H Hq HJ. apply push_linear. by eapply rows_opposite. Qed.
Theorem C77_angular o c j imps dt pA pB A B c' qs q J imp mA IA mB IB :
  in_line c j A B →
  prepare_joint c j imps dt pA pB A B = Ok (c', qs) → q ∈ qs → J ∈ row_jacs q →
  has_mass A mA IA → has_mass B mB IB →
  add3 (angular_momentum o (push imp J A B).1 mA IA) (angular_momentum o (push imp J A B).2 mB IB)
  = add3 (angular_momentum o A mA IA) (angular_momentum o B mB IB).
Proof. intros Hl H Hq HJ. apply push_angular. by eapply rows_balanced. Qed.
(** When the pivots are apart, each impulse adds its moment about the gap. *)
Theorem C77_leak o c j imps dt pA pB A B c' qs q J imp mA IA mB IB :
  match c with
  | JointModel.KHinge _ | JointModel.KPoint _ | JointModel.KContact _ | JointModel.KExtras _ _ => True
  | JointModel.KGeneric _ _ _ _ _ _ | JointModel.KCv _ => axis_a j A = axis_b j B
  | _ => False
  end →
  prepare_joint c j imps dt pA pB A B = Ok (c', qs) → q ∈ qs → J ∈ row_jacs q →
  has_mass A mA IA → has_mass B mB IB →
  add3 (angular_momentum o (push imp J A B).1 mA IA) (angular_momentum o (push imp J A B).2 mB IB)
  = add3 (add3 (angular_momentum o A mA IA) (angular_momentum o B mB IB))
      (scl imp (cross3 (sub3 (pivot_a j A) (pivot_b j B)) (ja J))).
Proof.
  intros Hl H Hq HJ MA MB. destruct (rows_gap c j imps dt pA pB A B c' qs q J Hl H Hq HJ) as [Ho Hg].
  rewrite (push_angular_gen o imp J A B mA IA mB IB Ho MA MB). by rewrite Hg.
Qed.
(** A body that is not dynamic is not moved. *)
Theorem C77_static imp J A B :
  (cb_im A = 0 → cb_I A = Mat vec0 vec0 vec0 → (push imp J A B).1 = A) ∧
  (cb_im B = 0 → cb_I B = Mat vec0 vec0 vec0 → (push imp J A B).2 = B).
Proof.
  assert (Z : ∀ v w, add3 v (scl imp (scl 0 w)) = v).
  { intros v w. apply v3_eq; unfold add3, scl; cbn [vx vy vz]; ring. }
  assert (Y : ∀ v, add3 v (scl imp vec0) = v).
  { intros v. apply v3_eq; unfold add3, scl, vec0; cbn [vx vy vz]; ring. }
  split; intros Hm HI; unfold push; cbn [fst snd]; rewrite Hm, HI, Z, mvec_zero, Y.
  - by destruct A; cbn in *; subst.
  - by destruct B; cbn in *; subst.
Qed.
(** Not in general: a slider whose bodies are apart along the free axis gains
    angular momentum from the row that locks the axis across. *)
Theorem C77_slider_refuted : ∃ l0 l1 l2 a0 a1 a2 j A B c' qs q J,
  prepare_joint (JointModel.KGeneric l0 l1 l2 a0 a1 a2) j [] 1 (Some 0%nat) (Some 1%nat) A B = Ok (c', qs) ∧
  q ∈ qs ∧ J ∈ row_jacs q ∧ has_mass A 1 mid ∧ has_mass B 1 mid ∧
  (* the offset is allowed: the first linear degree of freedom is free, the second and third are at 0 *)
  JointModel.d_enabled l0 = false ∧ linear_offset j A B 1 = 0 ∧ linear_offset j A B 2 = 0 ∧
  angular_momentum vec0 A 1 mid = vec0 ∧ angular_momentum vec0 B 1 mid = vec0 ∧
  add3 (angular_momentum vec0 (push 1 J A B).1 1 mid) (angular_momentum vec0 (push 1 J A B).2 1 mid) = V3 0 0 (-3).
Proof.
  set (j := simple_joint vec0 vec0 mid 0). set (A := ball vec0 vec0 vec0). set (B := ball (V3 3 0 0) vec0 vec0).
  assert (Ea : axis_a j A = ex). { unfold axis_a; cbn. rewrite rotate_qid. apply v3_eq; reflexivity. }
  assert (Eb : axis_b j B = ex). { unfold axis_b; cbn. rewrite rotate_qid. apply v3_eq; reflexivity. }
  assert (Hu : unit3 ex) by (unfold unit3, dot3, ex; cbn; ring).
  destruct (generic_ok no_dof (locked 0) (locked 0) (locked 0) (locked 0) (locked 0) j [] 1 (Some 0%nat) (Some 1%nat) A B) as [qs Hqs].
  { by rewrite Ea. } { by rewrite Eb. } { repeat constructor; cbn; lra. }
  destruct (generic_goals _ _ _ _ _ _ _ _ _ _ _ _ _ _ _ Hqs ltac:(lra) 1%nat ltac:(lia)) as (tw & _ & _ & HE & _).
  destruct (HE eq_refl eq_refl) as (q & Hq & HJ & _).
  destruct (pivots_ball vec0 vec0 mid 0 vec0 vec0 vec0) as [Pa _].
  destruct (pivots_ball vec0 vec0 mid 0 (V3 3 0 0) vec0 vec0) as [_ Pb].
  assert (Ax : ∀ i, linear_axis j A i = mcol mid i) by (intros; unfold linear_axis; cbn [j A ball cb_orn jt_fa simple_joint]; by rewrite rotate_qid).
  exists no_dof, (locked 0), (locked 0), (locked 0), (locked 0), (locked 0), j, A, B.
  eexists _, qs, q, (linear_jac j A B 1).
  split; [exact Hqs|]. split; [done|]. split; [unfold row_jacs; rewrite HJ; left|].
  split; [apply ball_mass|]. split; [apply ball_mass|]. split; [done|].
  assert (Lo : ∀ i, (i = 1 ∨ i = 2)%nat → linear_offset j A B i = 0).
  { intros i Hi. unfold linear_offset. rewrite Ax. subst j A B. rewrite Pa, Pb.
    destruct Hi as [->| ->]; unfold dot3, sub3, add3, vec0, mid, col0, col1, col2, ex, ey, ez; cbn; ring. }
  split; [apply Lo; auto|]. split; [apply Lo; auto|].
  assert (Zm : ∀ p, angular_momentum vec0 (ball p vec0 vec0) 1 mid = vec0).
  { intros p. apply v3_eq; unfold angular_momentum, ball, add3, cross3, sub3, scl, mvec, dot3, vec0, mid, ex, ey, ez; cbn; ring. }
  split; [apply Zm|]. split; [apply Zm|].
  assert (Hal : axis_a j A = axis_b j B) by (by rewrite Ea, Eb).
  rewrite (C77_leak vec0 (JointModel.KGeneric no_dof (locked 0) (locked 0) (locked 0) (locked 0) (locked 0)) j [] 1 (Some 0%nat) (Some 1%nat) A B _ qs q (linear_jac j A B 1) 1 1 mid 1 mid Hal Hqs Hq);
    [|unfold row_jacs; rewrite HJ; left|apply ball_mass|apply ball_mass].
  subst A B. rewrite !Zm. subst j. rewrite Pa, Pb.
  unfold linear_jac, jpull. cbn [ja]. unfold linear_axis. cbn [ball cb_orn jt_fa simple_joint]. rewrite rotate_qid.
  apply v3_eq; unfold cross3, sub3, add3, scl, vec0, mid, mcol, col1, ex, ey, ez; cbn; ring.
Qed.
(** A case: a point constraint whose pivots meet. *)
Example C77_case : ∃ c' qs q J, let j := simple_joint ex (neg3 ex) mid 0 in
  let A := ball vec0 (V3 1 2 3) ey in let B := ball (V3 2 0 0) vec0 ez in
  in_line (JointModel.KPoint (N := Rnum) 0) j A B ∧
  prepare_joint (JointModel.KPoint (N := Rnum) 0) j [] 1 (Some 0%nat) (Some 1%nat) A B = Ok (c', qs) ∧ q ∈ qs ∧ J ∈ row_jacs q ∧
  has_mass A 1 mid ∧ has_mass B 1 mid ∧ (push 5 J A B).1 ≠ A.
Proof.
  cbv zeta. eexists _, _, _, _. split; [|split; [reflexivity|split; [left|split; [left|split; [apply ball_mass|split; [apply ball_mass|]]]]]].
  - cbn [in_line]. destruct (pivots_ball ex (neg3 ex) mid 0 vec0 (V3 1 2 3) ey) as [-> _].
    destruct (pivots_ball ex (neg3 ex) mid 0 (V3 2 0 0) vec0 ez) as [_ ->].
    apply v3_eq; unfold add3, neg3, vec0, ex; cbn; ring.
  - intros E. apply (f_equal (λ b, vx (cb_lin b))) in E.
    revert E. cbn. lra.
Qed.

(** * C78: what rows measure *)
(** An orientation that changes as the code integrates it turns every vector
    with the angular velocity. *)
Theorem C78_turning (q : R → quat) (t : R) (w : v3) :
  qlsq (q t) = 1 →
  derivable_pt_lim (λ s, qx (q s)) t (qx (quat_derivative (q t) w)) →
  derivable_pt_lim (λ s, qy (q s)) t (qy (quat_derivative (q t) w)) →
  derivable_pt_lim (λ s, qz (q s)) t (qz (quat_derivative (q t) w)) →
  derivable_pt_lim (λ s, qw (q s)) t (qw (quat_derivative (q t) w)) →
  ∀ v, rate3 (λ s, rotate (q s) v) t (cross3 w (rotate (q t) v)).
Proof. exact (quat_spin q t w). Qed.

Section rates.
Context (mA mB : motion) (t : R) (A B : cbody) (j : joint) (imps : list R) (dt : R) (pA pB : RowModel.ptr)
  (c' : JointModel.config Rnum) (qs : list (JointModel.req Rnum)).
Context (HA : on_motion mA t A) (HB : on_motion mB t B).

Theorem C78_gravity q :
  prepare_joint JointModel.KGravity j imps dt pA pB A B = Ok (c', qs) → q ∈ qs →
  eps < dsq (cb_pos A) (cb_pos B) →
  rate_of (λ A B, GeoModel.dist (cb_pos A) (cb_pos B)) mA mB A B t (relative_speed (qJ q) A B).
Proof using HA HB. intros H Hq He. rewrite (gravity_rows _ _ _ _ _ _ _ _ _ _ H Hq). by apply gravity_rate. Qed.
Theorem C78_distance q :
  prepare_joint JointModel.KDistance j imps dt pA pB A B = Ok (c', qs) → q ∈ qs →
  eps < dsq (pivot_a j A) (pivot_b j B) →
  rate_of (λ A B, 1 / 2 * (dsq (pivot_a j A) (pivot_b j B) - jt_dist j * jt_dist j)) mA mB A B t
    (relative_speed (qJ q) A B).
Proof using HA HB.
  intros H Hq He. destruct (distance_rows _ _ _ _ _ _ _ _ _ _ H Hq) as [-> _]. by apply distance_rate.
Qed.
Theorem C78_soft_distance a b c q :
  prepare_joint (JointModel.KSoft a b c) j imps dt pA pB A B = Ok (c', qs) → q ∈ qs →
  eps < dsq (pivot_a j A) (pivot_b j B) →
  rate_of (λ A B, GeoModel.dist (pivot_a j A) (pivot_b j B)) mA mB A B t (relative_speed (qJ q) A B).
Proof using HA HB. intros H Hq He. rewrite (soft_rows _ _ _ _ _ _ _ _ _ _ _ _ _ H Hq). by apply soft_rate. Qed.
Theorem C78_point tq i q :
  prepare_joint (JointModel.KPoint tq) j imps dt pA pB A B = Ok (c', qs) → qs !! i = Some q → (i < 3)%nat →
  rate_of (λ A B, dot3 (sub3 (pivot_a j A) (pivot_b j B)) (mrow mid i)) mA mB A B t (relative_speed (qJ q) A B).
Proof using HA HB.
  intros H Hq Hi. destruct (point_rows _ _ _ _ _ _ _ _ _ _ _ _ H Hq Hi) as [-> _]. by apply pivot_rate.
Qed.
Theorem C78_hinge_pivot h i q :
  prepare_joint (JointModel.KHinge h) j imps dt pA pB A B = Ok (c', qs) → qs !! i = Some q → (i < 3)%nat →
  rate_of (λ A B, dot3 (sub3 (pivot_a j A) (pivot_b j B)) (mrow mid i)) mA mB A B t (relative_speed (qJ q) A B).
Proof using HA HB.
  intros H Hq Hi. rewrite (hinge_rows _ _ _ _ _ _ _ _ _ _ _ _ H Hq).
  destruct i as [|[|[|i]]]; [| | |lia]; by apply pivot_rate.
Qed.
(** With the axes aligned: how the axis of B tilts, and how B turns, seen from A. *)
Theorem C78_hinge_tilt h q3 q4 :
  frame_ok (jt_fa j) → frame_ok (jt_fb j) → axis_b j B = axis_a j A →
  prepare_joint (JointModel.KHinge h) j imps dt pA pB A B = Ok (c', qs) →
  qs !! 3%nat = Some q3 → qs !! 4%nat = Some q4 →
  rate_of (λ A B, dot3 (rotate (cb_orn A) (col2 (jt_fa j))) (rotate (cb_orn B) (col0 (jt_fb j)))) mA mB A B t
    (relative_speed (qJ q3) A B) ∧
  rate_of (λ A B, dot3 (rotate (cb_orn A) (col1 (jt_fa j))) (rotate (cb_orn B) (col0 (jt_fb j)))) mA mB A B t
    (- relative_speed (qJ q4) A B).
Proof using HA HB.
  intros Fa Fb Hal H H3 H4. rewrite (hinge_rows _ _ _ _ _ _ _ _ _ _ _ _ H H3), (hinge_rows _ _ _ _ _ _ _ _ _ _ _ _ H H4).
  destruct (hinge_tilt_rates mA mB t A B j HA HB Fa Hal) as [R1 R2]. by split.
Qed.
Theorem C78_hinge_turn h i q :
  frame_ok (jt_fa j) → frame_ok (jt_fb j) → axis_b j B = axis_a j A →
  prepare_joint (JointModel.KHinge h) j imps dt pA pB A B = Ok (c', qs) →
  qs !! i = Some q → (5 <= i)%nat →
  let x A B := dot3 (rotate (cb_orn A) (col1 (jt_fa j))) (rotate (cb_orn B) (col1 (jt_fb j))) in
  let y A B := dot3 (rotate (cb_orn A) (col2 (jt_fa j))) (rotate (cb_orn B) (col1 (jt_fb j))) in
  rate_of x mA mB A B t (relative_speed (qJ q) A B * y A B) ∧
  rate_of y mA mB A B t (- relative_speed (qJ q) A B * x A B).
Proof using HA HB.
  intros Fa Fb Hal H Hq Hi x y. rewrite (hinge_rows _ _ _ _ _ _ _ _ _ _ _ _ H Hq).
  destruct i as [|[|[|[|[|i]]]]]; try lia.
  exact (hinge_turn_rates mA mB t A B j HA HB Fa Fb Hal).
Qed.
(** Contacts: with the normal fixed, or fixed to a body while the points differ
    only along it, the first row measures the distance; the friction rows
    measure the velocity of the points past each other along the tangents. *)
Theorem C78_contact o q :
  prepare_joint (JointModel.KContact o) j imps dt pA pB A B = Ok (c', qs) → q ∈ qs →
  rate_of (λ A B, dot3 (sub3 (pivot_a j A) (pivot_b j B)) (jt_normal j)) mA mB A B t (relative_speed (qJ q) A B) ∧
  (∀ v k, jt_normal j = rotate (cb_orn A) v → sub3 (pivot_a j A) (pivot_b j B) = scl k (jt_normal j) →
     rate_of (λ A B, dot3 (sub3 (pivot_a j A) (pivot_b j B)) (rotate (cb_orn A) v)) mA mB A B t (relative_speed (qJ q) A B)) ∧
  (∀ v k, jt_normal j = rotate (cb_orn B) v → sub3 (pivot_a j A) (pivot_b j B) = scl k (jt_normal j) →
     rate_of (λ A B, dot3 (sub3 (pivot_a j A) (pivot_b j B)) (rotate (cb_orn B) v)) mA mB A B t (relative_speed (qJ q) A B)) ∧
  ∃ J1 J2, row_jacs q = [qJ q; J1; J2] ∧
    relative_speed J1 A B = dot3 (sub3 (point_velocity A (arm_a j A)) (point_velocity B (arm_b j B))) (plane_space (jt_normal j)).1 ∧
    relative_speed J2 A B = dot3 (sub3 (point_velocity A (arm_a j A)) (point_velocity B (arm_b j B))) (plane_space (jt_normal j)).2.
Proof using HA HB.
  intros H Hq. destruct (contact_rows _ _ _ _ _ _ _ _ _ _ _ H Hq) as (HJ & _).
  assert (E : qJ q = jpull (arm_a j A) (arm_b j B) (jt_normal j)).
  { exact (f_equal (λ l, nth 0 l jzero) HJ). }
  assert (Z : ∀ w k n, dot3 w (cross3 n (scl k n)) = 0).
  { intros w k n. unfold dot3, cross3, scl. cbn [vx vy vz]. ring. }
  rewrite E. split; [|split; [|split]].
  - by apply fixed_rate.
  - intros v k Hn Hg. rewrite Hn. eapply dlim_eq; [apply (turningA_rate mA mB t A B j HA HB v)|].
    rewrite Hg, Hn, Z. ring.
  - intros v k Hn Hg. rewrite Hn. eapply dlim_eq; [apply (turningB_rate mA mB t A B j HA HB v)|].
    rewrite Hg, Hn, Z. ring.
  - exists (contact_jac j A B 1), (contact_jac j A B 2). rewrite HJ. split; [done|].
    split; apply pull_speed.
Qed.
(** Generic constraints: the swing angles; the offsets only up to the turning of A. *)
Theorem C78_generic l0 l1 l2 a0 a1 a2 k q :
  frame_ok (jt_fa j) → frame_ok (jt_fb j) →
  prepare_joint (JointModel.KGeneric l0 l1 l2 a0 a1 a2) j imps dt pA pB A B = Ok (c', qs) →
  q ∈ qs → qJ q = dof_jac j A B k →
  ((k < 3)%nat → rate_of (λ A B, linear_offset j A B k) mA mB A B t
     (- relative_speed (qJ q) A B + dot3 (cb_ang A) (cross3 (linear_axis j A k) (sub3 (pivot_b j B) (pivot_a j A))))) ∧
  (∀ i, (k = i + 3)%nat → (i = 1 ∨ i = 2)%nat → tiny < lsq (cross3 (other_axis j A i) (axis_b j B)) →
     rate_of (λ A B, swing_angle j A B i) mA mB A B t (- relative_speed (qJ q) A B)).
Proof using HA HB.
  intros Fa Fb H Hq HJ. rewrite HJ. split.
  - intros Hk. destruct k as [|[|[|k]]]; [| | |lia]; by apply linear_rate.
  - intros i -> [->| ->] Ht; by apply swing_rate.
Qed.
End rates.

(** Motions: at a constant velocity, and about the third axis. *)
Lemma rotate_vec0 q : rotate q (neg3 vec0) = vec0.
Proof. apply v3_eq; unfold rotate, add3, cross3, scl, neg3, vec0; cbn [vx vy vz]; ring. Qed.
Lemma moving_ball pos lin : on_motion (Motion vec0 (λ s, add3 pos (scl s lin)) (λ _, qid)) 0 (ball pos lin vec0).
Proof.
  assert (E0 : add3 pos (scl 0 lin) = pos) by (apply v3_eq; unfold add3, scl; cbn [vx vy vz]; ring).
  split; [|split; [|split]].
  - unfold body_at, ball, to_world. cbn. f_equal.
    + rewrite rotate_vec0. rewrite E0. apply v3_eq; unfold add3, vec0; cbn [vx vy vz]; ring.
    + by rewrite E0.
  - cbn.
    assert (L : ∀ a b, derivable_pt_lim (λ s, a + s * b) 0 b).
    { intros a b. eapply dlim_eq.
      - apply (derivable_pt_lim_plus (λ _, a) (λ s, s * b)); [apply derivable_pt_lim_const|].
        apply (dlim_ext (λ s, b * s)); [intros; ring|]. apply (derivable_pt_lim_scal id b 0 1), derivable_pt_lim_id.
      - ring. }
    repeat split; apply L.
  - intros s. apply unit_qid.
  - intros v. cbn. replace (cross3 vec0 (rotate qid v)) with vec0; [apply rate_const|].
    apply v3_eq; unfold cross3, vec0; cbn [vx vy vz]; ring.
Qed.
Definition spin_z (s : R) : quat := Quat 0 0 (sin (s / 2)) (cos (s / 2)).
Lemma spin_z_unit s : qlsq (spin_z s) = 1.
Proof. unfold qlsq, spin_z. cbn. pose proof (sin2_cos2 (s / 2)). unfold Rsqr in *. lra. Qed.
Lemma spinning_ball pos : on_motion (Motion vec0 (λ _, pos) spin_z) 0 (ball pos vec0 ez).
Proof.
  assert (E0 : spin_z 0 = qid).
  { unfold spin_z, qid. replace (0 / 2) with 0 by lra. by rewrite sin_0, cos_0. }
  split; [|split; [|split]].
  - unfold body_at, ball, to_world. cbn. rewrite E0, rotate_vec0. f_equal.
    apply v3_eq; unfold add3, vec0; cbn [vx vy vz]; ring.
  - cbn. apply rate_const.
  - apply spin_z_unit.
  - cbn. rewrite <- E0. apply (C78_turning spin_z 0 ez); rewrite ?E0.
    + apply unit_qid.
    + cbn. eapply dlim_eq; [apply derivable_pt_lim_const|]. lra.
    + cbn. eapply dlim_eq; [apply derivable_pt_lim_const|]. lra.
    + cbn. eapply dlim_eq.
      * apply (derivable_pt_lim_comp (λ s, s / 2) sin).
        -- apply (dlim_ext (λ s, 1 / 2 * s)); [intros; lra|]. apply (derivable_pt_lim_scal id (1 / 2) 0 1), derivable_pt_lim_id.
        -- apply derivable_pt_lim_sin.
      * replace (0 / 2) with 0 by lra. rewrite cos_0. lra.
    + cbn. eapply dlim_eq.
      * apply (derivable_pt_lim_comp (λ s, s / 2) cos).
        -- apply (dlim_ext (λ s, 1 / 2 * s)); [intros; lra|]. apply (derivable_pt_lim_scal id (1 / 2) 0 1), derivable_pt_lim_id.
        -- apply derivable_pt_lim_cos.
      * replace (0 / 2) with 0 by lra. rewrite sin_0. lra.
Qed.
(** The row of an offset does not measure it when A turns: here the row sees no
    motion while the offset changes by 3 per unit of time. *)
Theorem C78_offset_refuted : ∃ mA mB A B j,
  on_motion mA 0 A ∧ on_motion mB 0 B ∧ frame_ok (jt_fa j) ∧
  relative_speed (dof_jac j A B 1) A B = 0 ∧
  rate_of (λ A B, linear_offset j A B 1) mA mB A B 0 (-3).
Proof.
  set (B := ball (V3 3 0 0) vec0 vec0). set (A := ball vec0 vec0 ez). set (j := simple_joint vec0 vec0 mid 0).
  destruct (pivots_ball vec0 vec0 mid 0 vec0 vec0 ez) as [Pa _].
  destruct (pivots_ball vec0 vec0 mid 0 (V3 3 0 0) vec0 vec0) as [_ Pb].
  assert (Ax : linear_axis j A 1 = ey).
  { unfold linear_axis. cbn [j A ball cb_orn jt_fa simple_joint]. rewrite rotate_qid. by apply v3_eq. }
  assert (HA : on_motion (Motion vec0 (λ _, vec0) spin_z) 0 A) by apply spinning_ball.
  assert (HB : on_motion (Motion vec0 (λ s, add3 (V3 3 0 0) (scl s vec0)) (λ _, qid)) 0 B) by apply moving_ball.
  assert (Z : relative_speed (linear_jac j A B 1) A B = 0).
  { unfold linear_jac. rewrite Ax, (pull_speed A B j). unfold pivot_speed, point_velocity, arm_a, arm_b.
    subst j A B. rewrite Pa, Pb. unfold dot3, sub3, add3, cross3, vec0, ey, ez; cbn. ring. }
  exists (Motion vec0 (λ _, vec0) spin_z), (Motion vec0 (λ s, add3 (V3 3 0 0) (scl s vec0)) (λ _, qid)), A, B, j.
  split; [done|]. split; [done|]. split; [|split].
  - cbn. unfold frame_ok, unit3. repeat split; first [unfold dot3, col0, col1, col2, mid, ex, ey, ez; cbn; ring
      |apply v3_eq; unfold cross3, col0, col1, col2, mid, ex, ey, ez; cbn; ring].
  - exact Z.
  - eapply dlim_eq; [apply (linear_rate _ _ 0 A B j HA HB 1)|]. rewrite Z, Ax.
    subst j A B. rewrite Pa, Pb. unfold dot3, sub3, add3, cross3, vec0, ey, ez; cbn. ring.
Qed.
Example C78_case : on_motion (Motion vec0 (λ _, vec0) spin_z) 0 (ball vec0 vec0 ez) ∧
  on_motion (Motion vec0 (λ s, add3 (V3 3 0 0) (scl s ey)) (λ _, qid)) 0 (ball (V3 3 0 0) ey vec0) ∧
  eps < dsq (pivot_a (simple_joint ex ey mid 0) (ball vec0 vec0 ez)) (pivot_b (simple_joint ex ey mid 0) (ball (V3 3 0 0) ey vec0)).
Proof.
  split; [apply spinning_ball|]. split; [apply moving_ball|].
  destruct (pivots_ball ex ey mid 0 vec0 vec0 ez) as [-> _].
  destruct (pivots_ball ex ey mid 0 (V3 3 0 0) ey vec0) as [_ ->].
  unfold dsq, lsq, dot3, sub3, add3, vec0, ex, ey. cbn. pose proof eps_small. lra.
Qed.

Print Assumptions C77_linear.
Print Assumptions C77_angular.
Print Assumptions C77_leak.
Print Assumptions C77_static.
Print Assumptions C77_slider_refuted.
Print Assumptions C78_turning.
Print Assumptions C78_gravity.
Print Assumptions C78_distance.
Print Assumptions C78_soft_distance.
Print Assumptions C78_point.
Print Assumptions C78_hinge_pivot.
Print Assumptions C78_hinge_tilt.
Print Assumptions C78_hinge_turn.
Print Assumptions C78_contact.
Print Assumptions C78_generic.
Print Assumptions C78_offset_refuted.
