(** Axis and angle, integration, shortest arcs, interpolation. *)
From Verif Require Import Outcome BoxModel GeoModel RotSpec RotProofs RotProofs2 RotProofs3.
From Coq Require Import Reals Lra Psatz Nsatz.
Local Open Scope R_scope.

Lemma unit_div v : v ≠ vec0 → unit3 (v / len v)%V.
Proof.
  intros H%len_pos. pose proof (len_sq v) as E. unfold unit3.
  assert (dot3 (v / len v)%V (v / len v)%V = lsq v / (len v * len v)) as ->.
  { destruct v as [a b c]. set (l := len _) in *. clearbody l. unf. field. lra. }
  rewrite E. apply Rinv_r. rewrite <- E. nra.
Qed.

(** The half-angle quaternion turns. *)
Lemma half_turn n a v : unit3 n →
  rotate (Quat (vx n * sin (a * (1 / 2))) (vy n * sin (a * (1 / 2))) (vz n * sin (a * (1 / 2))) (cos (a * (1 / 2)))) v
  = turn n a v.
Proof.
  intros H. unfold turn.
  assert (a = 2 * (a * (1 / 2))) as E by field.
  rewrite E at 5 6 7. rewrite cos_2a_sin, sin_2a.
  set (s := sin (a * (1 / 2))). set (c := cos (a * (1 / 2))). clearbody s c. clear E.
  rewrite rotate_gen. cbn [qx qy qz qw].
  replace (1 - 2 * (vx n * s * (vx n * s) + vy n * s * (vy n * s) + vz n * s * (vz n * s)))
    with (1 - 2 * s * s * dot3 n n) by (unfold dot3; ring).
  unfold unit3 in H. rewrite H. vring.
Qed.
Lemma half_unit n a : unit3 n →
  unitq (Quat (vx n * sin (a * (1 / 2))) (vy n * sin (a * (1 / 2))) (vz n * sin (a * (1 / 2))) (cos (a * (1 / 2)))).
Proof.
  intros H. unfold unitq, qlsq. cbn [qx qy qz qw].
  pose proof (sin2_cos2 (a * (1 / 2))) as E. unfold Rsqr in E.
  set (s := sin (a * (1 / 2))) in *. set (c := cos (a * (1 / 2))) in *. clearbody s c.
  unfold unit3, dot3 in H.
  replace (vx n * s * (vx n * s) + vy n * s * (vy n * s) + vz n * s * (vz n * s) + c * c)
    with (s * s * (vx n * vx n + vy n * vy n + vz n * vz n) + c * c) by ring.
  rewrite H. lra.
Qed.

Lemma axis_angle_eq v a : v ≠ vec0 → quat_axis_angle v a =
  let n := (v / len v)%V in
  Quat (vx n * sin (a * (1 / 2))) (vy n * sin (a * (1 / 2))) (vz n * sin (a * (1 / 2))) (cos (a * (1 / 2))).
Proof.
  intros H%len_pos. unfold quat_axis_angle. cbn zeta.
  set (s := sin (a * (1 / 2))). set (c := cos (a * (1 / 2))). unfold div3. cbn [vx vy vz].
  f_equal; field; lra.
Qed.

Lemma axis_angle_ok v a : v ≠ vec0 →
  unitq (quat_axis_angle v a) ∧ ∀ u, rotate (quat_axis_angle v a) u = turn (v / len v)%V a u.
Proof.
  intros H. rewrite axis_angle_eq by done. cbn zeta. split.
  - by apply half_unit, unit_div.
  - intros u. by apply half_turn, unit_div.
Qed.
Lemma axis_angle_unit_ok v a : unit3 v → ∃ q, quat_axis_angle_unit v a = Ok q ∧ unitq q ∧
  ∀ u, rotate q u = turn v a u.
Proof.
  intros H. unfold quat_axis_angle_unit.
  assert (rltb (Rabs (lsq v - 1)) eps = true) as ->.
  { apply rltb_true. unfold lsq. unfold unit3 in H. rewrite H, Rminus_eq_0, Rabs_R0. apply eps_pos. }
  cbn. eexists. split; [done|]. split; [by apply half_unit|]. intros u. by apply half_turn.
Qed.

(** Reading the axis and the angle back. *)
Lemma axis_angle_back q u : unitq q → eps < 1 - qw q * qw q →
  unit3 (quat_axis q) ∧ rotate q u = turn (quat_axis q) (quat_angle q) u.
Proof.
  intros U H. pose proof eps_pos as Pe.
  assert (-1 <= qw q <= 1) as W by nra.
  unfold quat_axis. destruct (Rlt_dec eps (1 - qw q * qw q)) as [_|?]; [|done]. cbn zeta.
  set (s2 := 1 - qw q * qw q) in *.
  assert (0 < sqrt s2) as Ps by (apply sqrt_lt_R0; lra).
  assert (sqrt s2 * sqrt s2 = s2) as Es by (apply sqrt_sqrt; lra).
  set (n := V3 (qx q * (1 / sqrt s2)) (qy q * (1 / sqrt s2)) (qz q * (1 / sqrt s2))).
  assert (unit3 n) as Un.
  { unfold unit3, n, dot3. cbn [vx vy vz].
    replace (qx q * (1 / sqrt s2) * (qx q * (1 / sqrt s2)) + qy q * (1 / sqrt s2) * (qy q * (1 / sqrt s2)) +
      qz q * (1 / sqrt s2) * (qz q * (1 / sqrt s2))) with
      ((qx q * qx q + qy q * qy q + qz q * qz q) / (sqrt s2 * sqrt s2)) by (field; lra).
    rewrite Es. unfold unitq, qlsq in U.
    replace (qx q * qx q + qy q * qy q + qz q * qz q) with s2 by (unfold s2; lra). apply Rinv_r. lra. }
  split; [done|]. rewrite <- half_turn by done. f_equal.
  unfold quat_angle. replace (acos (qw q) * 2 * (1 / 2)) with (acos (qw q)) by field.
  rewrite sin_acos, cos_acos by done. change (1 - (qw q)²) with s2.
  unfold n. destruct q as [a b c d]. cbn [vx vy vz qx qy qz qw]. f_equal; field; lra.
Qed.

(** * integrate *)
Lemma qnorm_ok q : eps < qlen q → qnormalize q = Ok (qdiv q (qlen q)).
Proof. intros H. unfold qnormalize. by rewrite (proj2 (rltb_true _ _) H). Qed.
Lemma qdiv_1 q : qdiv q 1 = q.
Proof. destruct q. unfold qdiv. cbn. f_equal; field. Qed.
Lemma qnorm_unit q : unitq q → qnormalize q = Ok q.
Proof.
  intros U. rewrite qnorm_ok; rewrite qlen_unit by done; [by rewrite qdiv_1|].
  pose proof eps_small. lra.
Qed.
Lemma qscale_qdiv q s : s ≠ 0 → qdiv q s = qscale (/ s) q.
Proof. intros. destruct q. unfold qdiv, qscale. cbn. f_equal; field; done. Qed.

(** A fast spin turns exactly. *)
Lemma integrate_fast q w dt : unitq q → / 1000 <= len w →
  ∃ r, integrate q w dt = Ok r ∧ unitq r ∧
  ∀ v, rotate r v = turn (w / len w)%V (len w * dt) (rotate q v).
Proof.
  intros U L. unfold integrate. destruct (Rlt_dec (len w) (/ 1000)) as [?|_]; [lra|].
  assert (w ≠ vec0) as N. { intros ->. unfold len in L. assert (lsq vec0 = 0) as E by (unf; ring). rewrite E, sqrt_0 in L. lra. }
  assert (Quat (vx w * (sin (1 / 2 * len w * dt) / len w)) (vy w * (sin (1 / 2 * len w * dt) / len w))
    (vz w * (sin (1 / 2 * len w * dt) / len w)) (cos (1 / 2 * len w * dt)) = quat_axis_angle w (len w * dt)) as ->.
  { unfold quat_axis_angle. cbn zeta. replace (len w * dt * (1 / 2)) with (1 / 2 * len w * dt) by ring. done. }
  destruct (axis_angle_ok w (len w * dt) N) as [Ua Ta].
  exists (qmul (quat_axis_angle w (len w * dt)) q).
  rewrite qnorm_unit by by apply unit_mul. split_and!; [done|by apply unit_mul|].
  intros v. rewrite rotate_mul by done. apply Ta.
Qed.

(** atan is non-expansive. *)
Lemma atan_lip a b : Rabs (atan a - atan b) <= Rabs (a - b).
Proof.
  assert (∀ a b, a < b → Rabs (atan b - atan a) <= Rabs (b - a)) as K.
  { clear. intros a b H. destruct (MVT_cor2 atan (λ x, / (1 + x ^ 2)) a b H) as (c & E & _).
    { intros. apply derivable_pt_lim_atan. }
    rewrite E, Rabs_mult. rewrite <- (Rmult_1_l (Rabs (b - a))) at 2.
    apply Rmult_le_compat_r; [apply Rabs_pos|].
    assert (1 <= 1 + c ^ 2) as P by nra.
    rewrite Rabs_pos_eq. 2:{ apply Rlt_le, Rinv_0_lt_compat. lra. }
    rewrite <- Rinv_1 at 2. apply Rinv_le_contravar; lra. }
  destruct (Rtotal_order a b) as [H|[->|H]].
  - rewrite <- (Rabs_Ropp (atan a - _)), <- (Rabs_Ropp (a - b)).
    replace (- (atan a - atan b)) with (atan b - atan a) by ring.
    replace (- (a - b)) with (b - a) by ring. by apply K.
  - rewrite !Rminus_eq_0. lra.
  - by apply K.
Qed.

(** Three terms of the sine series. *)
Lemma sin_series x : 0 <= x → x <= 1 → x - x ^ 3 / 6 <= sin x <= x - x ^ 3 / 6 + x ^ 5 / 120.
Proof.
  intros H0 H1. destruct (pre_sin_bound x 0 H0 ltac:(lra)) as [L U].
  unfold sin_approx, sin_term in L, U. cbn -[pow] in L, U. 
  split; [eapply Rle_trans; [|exact L]|eapply Rle_trans; [exact U|]]; apply Req_le; field.
Qed.
