(** Slow spins, shortest arcs, interpolation between orientations. *)
From Verif Require Import Outcome BoxModel GeoModel RotSpec RotProofs RotProofs2 RotProofs3 RotProofs4.
From Coq Require Import Reals Lra Psatz Nsatz.
Local Open Scope R_scope.

Definition halfq (n : v3) (a : R) : quat :=
  Quat (vx n * sin (a * (1 / 2))) (vy n * sin (a * (1 / 2))) (vz n * sin (a * (1 / 2))) (cos (a * (1 / 2))).

Lemma sin_poly x : Rabs x <= 1 → Rabs (x - x ^ 3 / 6 - sin x) <= Rabs x ^ 5 / 120.
Proof.
  intros H. destruct (Rle_dec 0 x) as [P|P].
  - rewrite (Rabs_pos_eq x) in * by done. destruct (sin_series x P H) as [A B].
    apply Rabs_le. split; lra.
  - rewrite (Rabs_left x) in * by lra. destruct (sin_series (- x) ltac:(lra) H) as [A B].
    rewrite sin_neg in *. apply Rabs_le. split; lra.
Qed.

Lemma cos_near x : Rabs x <= / 100 → 99 / 100 <= cos x ∧ - (PI / 2) < x < PI / 2.
Proof.
  intros H. pose proof PI2_1 as HP.
  assert (- / 100 <= x <= / 100) as B. { unfold Rabs in H. destruct (Rcase_abs x); lra. }
  assert (- (PI / 2) < x < PI / 2) as I by lra. split; [|done].
  assert (0 < cos x) as C. { apply cos_gt_0; lra. }
  pose proof (sin_poly x ltac:(lra)) as S. pose proof (sin2_cos2 x) as E. unfold Rsqr in E.
  assert (Rabs x ^ 5 <= / 100) as P5.
  { pose proof (Rabs_pos x). apply Rle_trans with (/ 100 * 1 ^ 4); [|lra].
    change (Rabs x ^ 5) with (Rabs x * Rabs x ^ 4). apply Rmult_le_compat; [done|apply pow_le; done|done|].
    apply pow_incr. lra. }
  assert (Rabs (x ^ 3) <= / 100) as P3.
  { rewrite <- RPow_abs. pose proof (Rabs_pos x). apply Rle_trans with (/ 100 * 1 ^ 2); [|lra].
    change (Rabs x ^ 3) with (Rabs x * Rabs x ^ 2). apply Rmult_le_compat; [done|apply pow_le; done|done|].
    apply pow_incr. lra. }
  assert (- / 10 <= sin x <= / 10) as SB.
  { set (y := x ^ 3) in *. set (z := Rabs x ^ 5) in *. clearbody y z.
    unfold Rabs in S, P3. destruct (Rcase_abs (x - y / 6 - sin x)), (Rcase_abs y); lra. }
  nra.
Qed.

(** A slow spin turns about the same axis, by almost exactly the same angle. *)
Lemma integrate_slow q w dt : unitq q → len w < / 1000 → Rabs dt <= 1 →
  ∃ r a, integrate q w dt = Ok r ∧ unitq r ∧ Rabs (a - len w * dt) <= (len w * Rabs dt) ^ 5 / 1000 ∧
  ∀ n v, unit3 n → w = (len w * n)%V → rotate r v = turn n a (rotate q v).
Proof.
  intros U L D. unfold integrate. destruct (Rlt_dec (len w) (/ 1000)) as [_|?]; [|done].
  pose proof (len_nonneg w) as L0. set (ws := len w) in *.
  set (x := 1 / 2 * ws * dt).
  set (t := 1 / 2 * dt - dt * dt * dt * (1 / 48) * ws * ws).
  assert (t * ws = x - x ^ 3 / 6) as Ep. { unfold t, x. field. }
  assert (Rabs x <= / 2000) as Bx.
  { unfold x. rewrite !Rabs_mult. rewrite (Rabs_pos_eq ws) by done. rewrite (Rabs_pos_eq (1 / 2)) by lra.
    pose proof (Rabs_pos dt). nra. }
  destruct (cos_near x ltac:(lra)) as [Cx Ix].
  set (p := x - x ^ 3 / 6) in *.
  assert (Rabs (p - sin x) <= Rabs x ^ 5 / 120) as Sp by (apply sin_poly; lra).
  set (a := 2 * atan (p / cos x)).
  assert (a * (1 / 2) = atan (p / cos x)) as Ea by (unfold a; field).
  set (c := cos x) in *.
  set (l := sqrt (p * p + c * c)).
  assert (0 < p * p + c * c) as Pl by nra.
  assert (l * l = p * p + c * c) as El by (apply sqrt_sqrt; lra).
  assert (0 < l) as P0 by (by apply sqrt_lt_R0).
  assert (99 / 100 <= l) as P1 by nra.
  assert (sqrt (1 + (p / c)²) = l / c) as Es.
  { assert (1 + (p / c)² = (l / c) * (l / c)) as ->.
    { replace (l / c * (l / c)) with ((l * l) / (c * c)) by (field; lra). rewrite El. unfold Rsqr. field. lra. }
    apply sqrt_square. apply Rlt_le, Rdiv_lt_0_compat; lra. }
  assert (sin (a * (1 / 2)) = p / l ∧ cos (a * (1 / 2)) = c / l) as [Sa Ca].
  { rewrite Ea, sin_atan, cos_atan, Es. split; field; lra. }
  set (h := Quat (vx w * t) (vy w * t) (vz w * t) c).
  assert (qlsq h = l * l) as Lh.
  { unfold h, qlsq. cbn [qx qy qz qw]. rewrite El.
    replace (vx w * t * (vx w * t) + vy w * t * (vy w * t) + vz w * t * (vz w * t)) with (lsq w * (t * t))
      by (unfold lsq, dot3; ring).
    rewrite <- (len_sq w). fold ws. replace (ws * ws * (t * t)) with ((t * ws) * (t * ws)) by ring. rewrite Ep. ring. }
  assert (qlen (qmul h q) = l) as Ll.
  { unfold qlen. rewrite qlsq_mul, Lh. unfold unitq in U. rewrite U, Rmult_1_r. apply sqrt_square. lra. }
  exists (qdiv (qmul h q) l), a. split_and!.
  - rewrite qnorm_ok; rewrite Ll; [done|]. pose proof eps_small. lra.
  - rewrite <- Ll. apply qdiv_unit. lra.
  - assert (atan (tan x) = x) as At by (by apply atan_tan).
    assert (a - ws * dt = 2 * (atan (p / c) - atan (tan x))) as ->. { rewrite At. unfold a, x. field. }
    rewrite Rabs_mult, (Rabs_pos_eq 2) by lra.
    pose proof (atan_lip (p / c) (tan x)) as Li.
    assert (p / c - tan x = (p - sin x) / c) as E2. { unfold tan. fold c. field. lra. }
    rewrite E2 in Li. unfold Rdiv in Li at 2. rewrite Rabs_mult, (Rabs_pos_eq (/ c)) in Li.
    2:{ apply Rlt_le, Rinv_0_lt_compat. lra. }
    assert (Rabs x = ws * Rabs dt / 2) as Ax.
    { unfold x. rewrite !Rabs_mult. rewrite (Rabs_pos_eq ws) by done. rewrite (Rabs_pos_eq (1 / 2)) by lra. field. }
    assert (Rabs x ^ 5 = (ws * Rabs dt) ^ 5 / 32) as A5. { rewrite Ax. field. }
    assert (0 <= (ws * Rabs dt) ^ 5) as P5. { apply pow_le. pose proof (Rabs_pos dt). nra. }
    rewrite A5 in Sp. set (y := (ws * Rabs dt) ^ 5) in *. clearbody y.
    assert (/ c <= / (99 / 100)) as Ic by (apply Rinv_le_contravar; lra).
    replace (/ (99 / 100)) with (100 / 99) in Ic by field.
    assert (0 < / c) as Ic'. { apply Rinv_0_lt_compat. lra. }
    set (k := / c) in *. clearbody k. set (z := Rabs (p - sin x)) in *.
    assert (z * k <= y / 32 / 120 * (100 / 99)).
    { apply Rmult_le_compat; try lra. apply Rabs_pos. }
    lra.
  - intros n v Un Ew.
    assert (qdiv (qmul h q) l = qmul (halfq n a) q) as ->.
    { unfold halfq. rewrite Sa, Ca. rewrite qscale_qdiv by lra.
      assert (h = qscale l (Quat (vx n * (p / l)) (vy n * (p / l)) (vz n * (p / l)) (c / l))) as ->.
      { unfold h, qscale. cbn [qx qy qz qw]. rewrite Ew. fold ws. unfold scl. cbn [vx vy vz]. rewrite <- Ep.
        f_equal; field; lra. }
      generalize (Quat (vx n * (p / l)) (vy n * (p / l)) (vz n * (p / l)) (c / l)).
      assert (l ≠ 0) as Nl by lra. clear - Nl. intros g. destruct g as [g1 g2 g3 g4], q as [q1 q2 q3 q4]. unfold qscale, qmul. cbn [qx qy qz qw].
      f_equal; field; done. }
    rewrite rotate_mul; [|by apply half_unit|done]. by apply half_turn.
Qed.

(** * plane_space *)
Lemma half_sqrt2_bound : 0 < half_sqrt2 ∧ half_sqrt2 * half_sqrt2 < 51 / 100.
Proof. unfold half_sqrt2. lra. Qed.
Lemma plane_space_ok n p q : unit3 n → plane_space n = (p, q) →
  unit3 p ∧ unit3 q ∧ dot3 n p = 0 ∧ dot3 n q = 0 ∧ dot3 p q = 0 ∧ cross3 n p = q.
Proof.
  intros U. destruct half_sqrt2_bound as [H0 H1]. unfold plane_space.
  destruct n as [x y z]. unfold unit3, dot3 in U. cbn [vx vy vz] in *.
  destruct (Rlt_dec half_sqrt2 (Rabs z)) as [L|L].
  - assert (0 < y * y + z * z) as P. { unfold Rabs in L. destruct (Rcase_abs z); nra. }
    assert (0 < sqrt (y * y + z * z)) as Ps by (by apply sqrt_lt_R0).
    assert (sqrt (y * y + z * z) * sqrt (y * y + z * z) = y * y + z * z) as Es by (apply sqrt_sqrt; lra).
    set (s := sqrt (y * y + z * z)) in *. clearbody s.
    assert (∃ k, 1 / s = k ∧ k * s = 1) as (k & -> & Hk). { exists (1 / s). split; [done|]. field. lra. }
    clear - U Hk Es. injection 1 as <- <-. unf.
    assert (k * k * (y * y + z * z) = 1) by (rewrite <- Es; clear - Hk; nsatz).
    split_and!; try (clear - U H Es; nsatz).
    apply v3_eq; cbn [vx vy vz]; clear - U H Es Hk; nsatz.
  - assert (0 < x * x + y * y) as P. { unfold Rabs in L. destruct (Rcase_abs z); nra. }
    assert (0 < sqrt (x * x + y * y)) as Ps by (by apply sqrt_lt_R0).
    assert (sqrt (x * x + y * y) * sqrt (x * x + y * y) = x * x + y * y) as Es by (apply sqrt_sqrt; lra).
    set (s := sqrt (x * x + y * y)) in *. clearbody s.
    assert (∃ k, 1 / s = k ∧ k * s = 1) as (k & -> & Hk). { exists (1 / s). split; [done|]. field. lra. }
    clear - U Hk Es. injection 1 as <- <-. unf.
    assert (k * k * (x * x + y * y) = 1) by (rewrite <- Es; clear - Hk; nsatz).
    split_and!; try (clear - U H Es; nsatz).
    apply v3_eq; cbn [vx vy vz]; clear - U H Es Hk; nsatz.
Qed.
Lemma exists_perp n : unit3 n → ∃ p, unit3 p ∧ dot3 p n = 0.
Proof.
  intros U. destruct (plane_space n) as [p q] eqn:E. exists p.
  destruct (plane_space_ok n p q U E) as (A & _ & B & _). split; [done|]. rewrite <- B. clear. vring.
Qed.

(** * shortest_arc *)
Lemma div_back c l : l ≠ 0 → c = (l * (c / l))%V.
Proof. intros H. destruct c as [c1 c2 c3]. unfold scl, div3. cbn [vx vy vz]. f_equal; field; done. Qed.
Lemma cauchy a b : dot3 a b * dot3 a b + lsq (cross3 a b) = lsq a * lsq b.
Proof. vring. Qed.
Lemma dot_unit_bound a b : unit3 a → unit3 b → -1 <= dot3 a b <= 1.
Proof.
  intros A B. pose proof (cauchy a b) as C. pose proof (lsq_nonneg (cross3 a b)) as P.
  unfold unit3, lsq in *. rewrite A, B in C. nra.
Qed.
Lemma shortest_arc_ok a b : unit3 a → unit3 b →
  ∃ q n t, shortest_arc a b = Ok q ∧ unitq q ∧ unit3 n ∧ dot3 n a = 0 ∧
    (∀ v, rotate q v = turn n t v) ∧ 0 <= t <= PI ∧
    (-1 + eps < dot3 a b → rotate q a = b ∧ cos t = dot3 a b) ∧
    (dot3 a b <= -1 + eps → rotate q a = (- a)%V ∧ t = PI).
Proof.
  intros Ua Ub. pose proof (dot_unit_bound a b Ua Ub) as Bd. pose proof eps_pos as Pe. pose proof eps_small as Se.
  unfold shortest_arc. destruct (Rle_dec (dot3 a b) (-1 + eps)) as [L|L].
  - destruct (plane_space a) as [n m] eqn:E. cbn [fst]. destruct (plane_space_ok a n m Ua E) as (Un & _ & D & _).
    assert (Quat (vx n) (vy n) (vz n) 0 = halfq n PI) as Eq.
    { unfold halfq. replace (PI * (1 / 2)) with (PI / 2) by field. rewrite sin_PI2, cos_PI2. f_equal; ring. }
    assert (dot3 n a = 0) as D' by (rewrite <- D; clear; vring).
    eexists _, n, PI. split; [done|]. rewrite Eq. pose proof PI_RGT_0.
    split_and!; try lra; try done; [by apply half_unit|by intros v; apply half_turn|].
    intros _. split; [|done]. unfold halfq. rewrite half_turn by done. unfold turn. rewrite cos_PI, sin_PI, D'.
    clear. vring.
  - set (d := dot3 a b) in *. apply Rnot_le_lt in L.
    assert (0 < (1 + d) * 2) as P by lra.
    assert (0 < sqrt ((1 + d) * 2)) as Ps by (by apply sqrt_lt_R0).
    assert (sqrt ((1 + d) * 2) * sqrt ((1 + d) * 2) = (1 + d) * 2) as Es by (apply sqrt_sqrt; lra).
    set (s := sqrt ((1 + d) * 2)) in *. set (c := cross3 a b).
    assert (lsq c = (1 - d) * (1 + d)) as Lc.
    { pose proof (cauchy a b) as C. unfold unit3 in *. unfold lsq in C at 2 3. rewrite Ua, Ub in C. fold d c in C. lra. }
    set (q := Quat (vx c * (1 / s)) (vy c * (1 / s)) (vz c * (1 / s)) (s * (1 / 2))).
    assert (unitq q) as Uq.
    { unfold unitq, q, qlsq. cbn [qx qy qz qw].
      replace (vx c * (1 / s) * (vx c * (1 / s)) + vy c * (1 / s) * (vy c * (1 / s)) +
        vz c * (1 / s) * (vz c * (1 / s)) + s * (1 / 2) * (s * (1 / 2))) with (lsq c / (s * s) + s * s / 4)
        by (unfold lsq, dot3; field; lra).
      rewrite Es, Lc. field. lra. }
    assert (0 <= 1 - d) as Nd by lra.
    assert (∃ n, unit3 n ∧ dot3 n a = 0 ∧ c = (len c * n)%V) as (n & Un & Dn & En).
    { destruct (Req_EM_T (len c) 0) as [Z|Z].
      - destruct (exists_perp a Ua) as (n & ? & ?). exists n. split_and!; [done..|].
        assert (c = vec0) as ->. { apply lsq_zero. rewrite <- len_sq, Z. ring. }
        assert (len vec0 = 0) as ->. { unfold len. replace (lsq vec0) with 0 by (unf; ring). apply sqrt_0. }
        unf. f_equal; ring.
      - assert (c ≠ vec0) as Nc. { intros E. apply Z. rewrite E. unfold len. replace (lsq vec0) with 0 by (unf; ring). apply sqrt_0. }
        exists (c / len c)%V. split; [by apply unit_div|]. split.
        + assert (dot3 c a = 0) as D by (unfold c; clear; vring).
          transitivity (dot3 c a / len c); [unfold dot3, div3; cbn [vx vy vz]; field; done|]. rewrite D. field. done.
        + by apply div_back. }
    exists q, n, (acos d).
    assert (sin (acos d) = len c ∧ cos (acos d) = d) as [Sd Cd].
    { rewrite sin_acos, cos_acos by done. split; [|done]. unfold len. f_equal. rewrite Lc. unfold Rsqr. ring. }
    assert (q = halfq n (acos d)) as Eq.
    { pose proof (acos_bound d) as Ba.
      assert (cos (acos d * (1 / 2)) = s / 2) as Ch.
      { assert (0 <= cos (acos d * (1 / 2))) as P0. { apply cos_ge_0; lra. }
        assert (cos (acos d * (1 / 2)) * cos (acos d * (1 / 2)) = s * s / 4) as S2.
        { pose proof (cos_2a_cos (acos d * (1 / 2))) as C2.
          replace (2 * (acos d * (1 / 2))) with (acos d) in C2 by field. rewrite Cd in C2. rewrite Es. lra. }
        clear - P0 S2 Ps. nra. }
      assert (sin (acos d * (1 / 2)) * s = len c) as Sh.
      { pose proof (sin_2a (acos d * (1 / 2))) as C2.
        replace (2 * (acos d * (1 / 2))) with (acos d) in C2 by field. rewrite Sd, Ch in C2. lra. }
      assert (sin (acos d * (1 / 2)) = len c * (1 / s)) as Sg. { rewrite <- Sh. field. lra. }
      unfold q, halfq. rewrite Ch, Sg.
      pose proof (f_equal vx En) as E1. pose proof (f_equal vy En) as E2. pose proof (f_equal vz En) as E3.
      unfold scl in E1, E2, E3. cbn [vx vy vz] in E1, E2, E3. rewrite E1, E2, E3.
      replace (s / 2) with (s * (1 / 2)) by field. f_equal; ring. }
    split_and!; try done.
    + by rewrite qnorm_unit.
    + intros v. rewrite Eq. by apply half_turn.
    + apply acos_bound.
    + apply acos_bound.
    + intros _. split; [|done]. rewrite Eq. unfold halfq. rewrite half_turn by done. unfold turn. rewrite Sd, Cd, Dn.
      assert (∀ l u, (l * cross3 n u = cross3 (l * n) u)%V) as K by (clear; vring).
      rewrite K, <- En. unfold c.
      transitivity ((d * a + (dot3 a a * b - dot3 a b * a))%V); [clear; vring|].
      fold d. unfold unit3 in Ua. rewrite Ua. clear. vring.
    + lra.
Qed.

(** * angle_between and slerp *)
Lemma relative q0 q1 : unitq q0 → unitq q1 →
  ∃ n, unit3 n ∧ q1 = qmul (halfq n (acos (qdot q0 q1) * 2)) q0 ∧ -1 <= qdot q0 q1 <= 1.
Proof.
  intros U0 U1. set (r := qmul q1 (qconj q0)).
  assert (qw r = qdot q0 q1) as Ew by (unfold r; clear; vring).
  assert (unitq r) as Ur by (by apply unit_mul; [|apply unit_conj]).
  assert (q1 = qmul r q0) as E1.
  { transitivity (qscale (qlsq q0) q1); [unfold unitq in U0; rewrite U0; clear; vring|]. unfold r. clear. vring. }
  assert (-1 <= qdot q0 q1 <= 1) as B.
  { rewrite <- Ew. unfold unitq, qlsq in Ur. clear - Ur. nra. }
  set (x := V3 (qx r) (qy r) (qz r)).
  assert (lsq x = 1 - qdot q0 q1 * qdot q0 q1) as Lx.
  { rewrite <- Ew. unfold unitq, qlsq in Ur. unfold lsq, x, dot3. cbn [vx vy vz]. lra. }
  assert (sin (acos (qdot q0 q1)) = len x) as Sx.
  { rewrite sin_acos by done. unfold len. f_equal. rewrite Lx. unfold Rsqr. ring. }
  assert (∃ n, unit3 n ∧ x = (len x * n)%V) as (n & Un & En).
  { destruct (Req_EM_T (len x) 0) as [Z|Z].
    - exists ex. split; [unf; ring|]. assert (x = vec0) as ->. { apply lsq_zero. rewrite <- len_sq, Z. ring. }
      assert (len vec0 = 0) as ->. { unfold len. replace (lsq vec0) with 0 by (unf; ring). apply sqrt_0. }
      unf. f_equal; ring.
    - assert (x ≠ vec0) as Nc. { intros E. apply Z. rewrite E. unfold len. replace (lsq vec0) with 0 by (unf; ring). apply sqrt_0. }
      exists (x / len x)%V. split; [by apply unit_div|].
      by apply div_back. }
  exists n. split_and!; try done; try lra. rewrite E1 at 1. f_equal.
  unfold halfq. replace (acos (qdot q0 q1) * 2 * (1 / 2)) with (acos (qdot q0 q1)) by field.
  rewrite Sx, cos_acos, <- Ew by done.
  rewrite (q_eq r (Quat (vx x) (vy x) (vz x) (qw r)) eq_refl eq_refl eq_refl eq_refl) at 1.
  pose proof (f_equal vx En) as E4. pose proof (f_equal vy En) as E2. pose proof (f_equal vz En) as E3.
  unfold scl in E4, E2, E3. cbn [vx vy vz] in E4, E2, E3. rewrite E4, E2, E3.
  f_equal; ring.
Qed.

Lemma angle_between_ok q0 q1 : unitq q0 → unitq q1 →
  ∃ a n, angle_between q0 q1 = Ok a ∧ 0 <= a <= 2 * PI ∧ unit3 n ∧
  (∀ v, rotate q1 v = turn n a (rotate q0 v)) ∧ (a <= PI ↔ 0 <= qdot q0 q1).
Proof.
  intros U0 U1. destruct (relative q0 q1 U0 U1) as (n & Un & E & B).
  exists (acos (qdot q0 q1) * 2), n.
  assert (sqrt (qlsq q0 * qlsq q1) = 1) as S. { unfold unitq in *. rewrite U0, U1, Rmult_1_l. apply sqrt_1. }
  pose proof (acos_bound (qdot q0 q1)) as Ba.
  split_and!; try done; try lra.
  - unfold angle_between. rewrite S. rewrite Rabs_R1, (proj2 (rltb_true eps 1)) by (pose proof eps_small; lra).
    cbn. do 3 f_equal. field.
  - intros v. rewrite E at 1. rewrite rotate_mul; [|by apply half_unit|done]. by apply half_turn.
  - split; intros H.
    + destruct (Rle_dec 0 (qdot q0 q1)) as [|N]; [done|]. exfalso.
      assert (cos (acos (qdot q0 q1)) = qdot q0 q1) as C by (by apply cos_acos).
      assert (0 <= cos (acos (qdot q0 q1))) by (apply cos_ge_0; lra). lra.
    + destruct (Rle_dec (acos (qdot q0 q1) * 2) PI) as [|N]; [done|]. exfalso.
      assert (cos (acos (qdot q0 q1)) = qdot q0 q1) as C by (by apply cos_acos).
      assert (cos (acos (qdot q0 q1)) < 0). { apply cos_lt_0; lra. } lra.
Qed.

Lemma rotate_opp q v : rotate (qscale (-1) q) v = rotate q v.
Proof. vring. Qed.

(** The path from one orientation to the other has constant speed. *)
Lemma slerp_ok q0 q1 : unitq q0 → unitq q1 → Rabs (qdot q0 q1) <= 1 - eps →
  ∃ n a, unit3 n ∧ 0 <= a <= PI ∧ (∀ v, rotate q1 v = turn n a (rotate q0 v)) ∧
  ∀ s, ∃ r, slerp q0 q1 s = Ok r ∧ unitq r ∧ ∀ v, rotate r v = turn n (s * a) (rotate q0 v).
Proof.
  intros U0 U1 L. pose proof eps_pos as Pe. pose proof eps_small as Se.
  set (sg := if Rlt_dec (qdot q0 q1) 0 then -1 else 1).
  assert (sg * sg = 1) as Esg by (unfold sg; destruct (Rlt_dec (qdot q0 q1) 0); ring).
  set (q1' := qscale sg q1).
  assert (unitq q1') as U1'. { unfold unitq, q1' in *. rewrite <- U1. transitivity (sg * sg * qlsq q1); [vring|]. rewrite Esg. ring. }
  assert (qdot q0 q1' = Rabs (qdot q0 q1)) as Ed.
  { transitivity (sg * qdot q0 q1); [unfold q1'; vring|]. unfold sg, Rabs.
    destruct (Rlt_dec (qdot q0 q1) 0), (Rcase_abs (qdot q0 q1)); lra. }
  assert (∀ v, rotate q1' v = rotate q1 v) as Er.
  { intros v. unfold q1', sg. destruct (Rlt_dec (qdot q0 q1) 0); [apply rotate_opp|]. vring. }
  destruct (relative q0 q1' U0 U1') as (n & Un & E & B). rewrite Ed in E, B.
  set (c := Rabs (qdot q0 q1)) in *.
  assert (0 <= c) as Pc by apply Rabs_pos.
  pose proof (acos_bound c) as Ba. set (th := acos c) in *.
  assert (cos th = c) as Ct by (by apply cos_acos).
  assert (0 < sin th) as St.
  { destruct (acos_bound_lt c) as [X Y]; [lra|]. by apply sin_gt_0. }
  assert (th <= PI / 2) as Th.
  { destruct (Rle_dec th (PI / 2)) as [|N]; [done|]. assert (cos th < 0) by (apply cos_lt_0; lra). lra. }
  exists n, (th * 2). split_and!; try done; try lra.
  - intros v. rewrite <- Er, E at 1. rewrite rotate_mul; [|by apply half_unit|done]. by apply half_turn.
  - intros s. exists (qmul (halfq n (s * (th * 2))) q0). split_and!.
    + unfold slerp.
      assert (sqrt (qlsq q0 * qlsq q1) = 1) as S. { unfold unitq in *. rewrite U0, U1, Rmult_1_l. apply sqrt_1. }
      rewrite S, (proj2 (rltb_true 0 1)) by lra. cbn [assert_ mbind res_bind].
      replace (qdot q0 q1 / 1) with (qdot q0 q1) by field. fold c sg.
      destruct (Rlt_dec (1 - eps) c) as [?|_]; [lra|]. fold th.
      rewrite (proj2 (rltb_true 0 (sin th))) by done. cbn [assert_ mbind res_bind]. f_equal.
      assert (sin (sg * s * th) = sg * sin (s * th)) as ->.
      { unfold sg. destruct (Rlt_dec (qdot q0 q1) 0).
        - replace (-1 * s * th) with (- (s * th)) by ring. rewrite sin_neg. ring.
        - rewrite !Rmult_1_l. done. }
      assert (sin ((1 - s) * th) = sin th * cos (s * th) - cos th * sin (s * th)) as ->.
      { replace ((1 - s) * th) with (th - s * th) by ring. apply sin_minus. }
      assert (q1 = qmul (qscale sg (halfq n (th * 2))) q0) as E1.
      { transitivity (qscale sg q1'); [unfold q1'; transitivity (qscale (sg * sg) q1); [rewrite Esg; vring|vring]|].
        rewrite E. clear. generalize (halfq n (th * 2)). vring. }
      rewrite E1. unfold halfq. replace (th * 2 * (1 / 2)) with th by field.
      replace (s * (th * 2) * (1 / 2)) with (s * th) by field.
      set (A := sin (s * th)). set (C := cos (s * th)). set (D := sin th) in *. set (F := cos th).
      destruct q0 as [x y z w], n as [n1 n2 n3]. unfold qmul, qscale. cbn [qx qy qz qw vx vy vz].
      clear - Esg St. clearbody A C D F sg.
      f_equal; apply (Rmult_eq_reg_r D); try lra; field_simplify; try lra; replace (sg ^ 2) with 1 by (rewrite <- Esg; ring); ring.
    + by apply unit_mul; [apply half_unit|].
    + intros v. rewrite rotate_mul; [|by apply half_unit|done]. by apply half_turn.
Qed.
