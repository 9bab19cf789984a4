(** Inverses, Euler angles, axis and angle, integration, shortest arcs, slerp. *)
From Verif Require Import Outcome BoxModel GeoModel RotSpec RotProofs RotProofs2.
From Coq Require Import Reals Lra Psatz Nsatz.
Local Open Scope R_scope.

(** * Inverses *)
Lemma madj m : mmul m (adjugate m) = mscale (det m) mid ∧ mmul (adjugate m) m = mscale (det m) mid.
Proof. split; open_all; unf; apply m_eq; cbn [r0 r1 r2]; apply v3_eq; cbn [vx vy vz]; ring. Qed.
Lemma mmul_scale_r s m n : mmul m (mscale s n) = mscale s (mmul m n).
Proof. open_all; unf; apply m_eq; cbn [r0 r1 r2]; apply v3_eq; cbn [vx vy vz]; ring. Qed.
Lemma mmul_scale_l s m n : mmul (mscale s m) n = mscale s (mmul m n).
Proof. open_all; unf; apply m_eq; cbn [r0 r1 r2]; apply v3_eq; cbn [vx vy vz]; ring. Qed.
Lemma mscale_mscale s t m : mscale s (mscale t m) = mscale (s * t) m.
Proof. open_all; unf; apply m_eq; cbn [r0 r1 r2]; apply v3_eq; cbn [vx vy vz]; ring. Qed.
Lemma mscale_1 m : mscale 1 m = m.
Proof. open_all; unf; apply m_eq; cbn [r0 r1 r2]; apply v3_eq; cbn [vx vy vz]; ring. Qed.

Lemma minverse_big m : eps < Rabs (det m) → mmul m (minverse m) = mid ∧ mmul (minverse m) m = mid.
Proof.
  intros H. unfold minverse. destruct (Rlt_dec eps (Rabs (det m))) as [_|?]; [|done].
  assert (det m ≠ 0) as N. { intros E. rewrite E, Rabs_R0 in H. pose proof eps_pos. lra. }
  destruct (madj m) as [A B]. rewrite mmul_scale_r, mmul_scale_l, A, B, mscale_mscale.
  replace (1 / det m * det m) with 1 by (field; done). by rewrite mscale_1.
Qed.
Lemma minverse_small m : Rabs (det m) <= eps → minverse m = mat0.
Proof.
  intros H. unfold minverse. destruct (Rlt_dec eps (Rabs (det m))) as [?|_]; [lra|].
  open_all. unf. apply m_eq; cbn [r0 r1 r2]; apply v3_eq; cbn [vx vy vz]; ring.
Qed.

Lemma minverse_sym_ok m n : minverse_sym m = Ok n ↔ mtrans m = m ∧ det m ≠ 0 ∧ mmul m n = mid.
Proof.
  assert (∀ di m', mtrans m' = m' → mtrans m' = m' → 
    Mat (V3 (di * (vy (r1 m') * vz (r2 m') - vz (r1 m') * vz (r1 m')))
            (di * (vz (r0 m') * vz (r1 m') - vy (r0 m') * vz (r2 m')))
            (di * (vy (r0 m') * vz (r1 m') - vz (r0 m') * vy (r1 m'))))
        (V3 (di * (vz (r0 m') * vz (r1 m') - vy (r0 m') * vz (r2 m')))
            (di * (vx (r0 m') * vz (r2 m') - vz (r0 m') * vz (r0 m')))
            (di * (vy (r0 m') * vz (r0 m') - vx (r0 m') * vz (r1 m'))))
        (V3 (di * (vy (r0 m') * vz (r1 m') - vz (r0 m') * vy (r1 m')))
            (di * (vy (r0 m') * vz (r0 m') - vx (r0 m') * vz (r1 m')))
            (di * (vx (r0 m') * vy (r1 m') - vy (r0 m') * vy (r0 m')))) = mscale di (adjugate m')) as K.
  { intros di [[a b c] [d e f] [g h i]] E _. unf. injection E. intros. subst.
    apply m_eq; cbn [r0 r1 r2]; apply v3_eq; cbn [vx vy vz]; ring. }
  assert (mtrans m = m ↔ vy (r0 m) = vx (r1 m) ∧ vz (r0 m) = vx (r2 m) ∧ vz (r1 m) = vy (r2 m)) as S.
  { open_all. unf. split; [intros E; injection E; intros; subst; done|intros (-> & -> & ->); done]. }
  unfold minverse_sym. split.
  - destruct (reqb (vy (r0 m)) (vx (r1 m))) eqn:E1; [|done].
    destruct (reqb (vz (r0 m)) (vx (r2 m))) eqn:E2; [|done].
    destruct (reqb (vz (r1 m)) (vy (r2 m))) eqn:E3; [|done].
    destruct (reqb (det m) 0) eqn:E4; [done|].
    apply reqb_true in E1, E2, E3.
    assert (det m ≠ 0) as N. { intros E. apply reqb_true in E. congruence. }
    assert (mtrans m = m) as T by tauto. cbn. rewrite (K _ m) by done. injection 1 as <-.
    split_and!; [done..|]. destruct (madj m) as [A _]. rewrite mmul_scale_r, A, mscale_mscale.
    replace (1 / det m * det m) with 1 by (field; done). by rewrite mscale_1.
  - intros (T & N & M). apply S in T as T'. destruct T' as (E1 & E2 & E3).
    assert (reqb (vy (r0 m)) (vx (r1 m)) = true) as -> by by apply reqb_true.
    assert (reqb (vz (r0 m)) (vx (r2 m)) = true) as -> by by apply reqb_true.
    assert (reqb (vz (r1 m)) (vy (r2 m)) = true) as -> by by apply reqb_true.
    assert (reqb (det m) 0 = false) as ->. { destruct (reqb (det m) 0) eqn:E; [|done]. by apply reqb_true in E. }
    cbn. rewrite (K _ m) by done. f_equal.
    (* n = det^-1 adj (m n) = det^-1 adj *)
    destruct (madj m) as [_ B].
    assert (mmul (adjugate m) (mmul m n) = mmul (mmul (adjugate m) m) n) as As.
    { generalize (adjugate m). clear. intros.
      open_all; unf; apply m_eq; cbn [r0 r1 r2]; apply v3_eq; cbn [vx vy vz]; ring. }
    rewrite M, B in As.
    assert (mmul (adjugate m) mid = adjugate m) as E5.
    { generalize (adjugate m). clear. intros.
      open_all; unf; apply m_eq; cbn [r0 r1 r2]; apply v3_eq; cbn [vx vy vz]; ring. }
    rewrite E5, mmul_scale_l in As.
    assert (mmul mid n = n) as E6.
    { clear. open_all; unf; apply m_eq; cbn [r0 r1 r2]; apply v3_eq; cbn [vx vy vz]; ring. }
    rewrite E6 in As. rewrite As, mscale_mscale. replace (1 / det m * det m) with 1 by (field; done).
    apply mscale_1.
Qed.

(** * Euler angles *)
Lemma atan2_spec x y r : 0 < r → x * x + y * y = r * r → cos (atan2 y x) = x / r ∧ sin (atan2 y x) = y / r.
Proof.
  intros Hr E.
  assert (∀ u, x ≠ 0 → u = Rabs x → sqrt (1 + (y / x)²) = r / u) as SQ.
  { intros u Nx ->.
    assert (0 < Rabs x) as Pu by by apply Rabs_pos_lt.
    assert (1 + (y / x)² = (r / Rabs x) * (r / Rabs x)) as ->.
    { unfold Rsqr. replace (r / Rabs x * (r / Rabs x)) with ((r * r) / (Rabs x * Rabs x)) by (field; lra).
      replace (Rabs x * Rabs x) with (x * x).
      2:{ unfold Rabs. destruct (Rcase_abs x); ring. }
      rewrite <- E. field. done. }
    apply sqrt_square. apply Rlt_le, Rdiv_lt_0_compat; lra. }
  unfold atan2. destruct (Rlt_dec 0 x) as [P|P]; [|destruct (Rlt_dec x 0) as [Q|Q]].
  - rewrite cos_atan, sin_atan, (SQ x); [split; field; lra|lra|]. by rewrite Rabs_pos_eq by lra.
  - assert (sqrt (1 + (y / x)²) = r / (- x)) as S. { apply SQ; [lra|]. by rewrite Rabs_left. }
    assert (cos (atan (y / x)) = - x / r ∧ sin (atan (y / x)) = - y / r) as [C D].
    { rewrite cos_atan, sin_atan, S. split; field; lra. }
    destruct (Rle_dec 0 y).
    + rewrite cos_plus, sin_plus, cos_PI, sin_PI, C, D. split; field; lra.
    + unfold Rminus. rewrite cos_plus, sin_plus, cos_neg, sin_neg, cos_PI, sin_PI, C, D. split; field; lra.
  - assert (x = 0) as -> by lra. destruct (Rlt_dec 0 y); [|destruct (Rlt_dec y 0)].
    + assert (r = y) as -> by nra. rewrite cos_PI2, sin_PI2. split; field; lra.
    + assert (r = - y) as -> by nra. replace (- PI / 2) with (- (PI / 2)) by field.
      rewrite cos_neg, sin_neg, cos_PI2, sin_PI2. split; field; lra.
    + assert (y = 0) by lra. subst. nra.
Qed.

Lemma euler_ok m : rotm m →
  let a := euler_xyz m in rot_xyz (vx a) (vy a) (vz a) = m.
Proof.
  intros (a & b & c & d & e & f & g & h & i & -> & (A1 & A2 & A3) & (B1 & B2 & B3) & (C1 & C2 & C3) &
    (D1 & D2 & D3) & (E1 & E2 & E3) & (F1 & F2 & F3) & (G1 & G2 & G3))%rotm_entries.
  cbn zeta. unfold euler_xyz. cbn [r0 r1 r2 vx vy vz].
  destruct (Rlt_dec c 1) as [L1|L1]; [destruct (Rlt_dec (-1) c) as [L2|L2]|]; cbn [vx vy vz].
  - assert (c * c < 1) as Pc by (clear - L1 L2; nra).
    assert (0 < sqrt (1 - c²)) as Pk. { apply sqrt_lt_R0. unfold Rsqr. clear - Pc; lra. }
    assert (sqrt (1 - c²) * sqrt (1 - c²) = 1 - c * c) as Ek.
    { rewrite sqrt_sqrt; [by unfold Rsqr|]. unfold Rsqr. clear - Pc; lra. }
    unfold rot_xyz. rewrite cos_asin, sin_asin by lra.
    set (k := sqrt (1 - c²)) in *. clearbody k.
    destruct (atan2_spec i (- f) k) as [X1 X2]; [done|lra|]. rewrite X1, X2.
    destruct (atan2_spec a (- b) k) as [Y1 Y2]; [done|lra|]. rewrite Y1, Y2.
    assert (k ≠ 0) as Nk by (clear - Pk; lra). assert (1 - c * c ≠ 0) as Nc by (clear - Pc; lra).
    clear X1 X2 Y1 Y2 L1 L2 Pk Pc.
    apply m_eq; cbn [r0 r1 r2]; apply v3_eq; cbn [vx vy vz]; try (field; done).
    + replace (a / k * (- f / k) * c + i / k * (- b / k)) with (- (a * f * c + i * b) / (k * k)) by (field; done).
      rewrite Ek. apply (Rmult_eq_reg_r (1 - c * c)); [|done].
      unfold Rdiv. rewrite Rmult_assoc, Rinv_l, Rmult_1_r by done. clear Nc Nk Ek; nsatz.
    + replace (i / k * (a / k) - - f / k * c * (- b / k)) with ((i * a - f * c * b) / (k * k)) by (field; done).
      rewrite Ek. apply (Rmult_eq_reg_r (1 - c * c)); [|done].
      unfold Rdiv. rewrite Rmult_assoc, Rinv_l, Rmult_1_r by done. clear Nc Nk Ek; nsatz.
    + replace (- (i / k) * (a / k) * c + - f / k * (- b / k)) with ((- i * a * c + f * b) / (k * k)) by (field; done).
      rewrite Ek. apply (Rmult_eq_reg_r (1 - c * c)); [|done].
      unfold Rdiv. rewrite Rmult_assoc, Rinv_l, Rmult_1_r by done. clear Nc Nk Ek; nsatz.
    + replace (a / k * (- f / k) + i / k * c * (- b / k)) with (- (a * f + i * c * b) / (k * k)) by (field; done).
      rewrite Ek. apply (Rmult_eq_reg_r (1 - c * c)); [|done].
      unfold Rdiv. rewrite Rmult_assoc, Rinv_l, Rmult_1_r by done. clear Nc Nk Ek; nsatz.
  - assert (c = -1) as ->. { clear - L1 L2 F1. nra. }
    assert (f = 0) as -> by (clear - A3; nra). assert (i = 0) as -> by (clear - A3; nra).
    assert (a = 0) as -> by (clear - F1; nra). assert (b = 0) as -> by (clear - F1; nra).
    destruct (atan2_spec e d 1) as [X1 X2]; [lra|lra|].
    unfold rot_xyz. rewrite !cos_neg, !sin_neg, cos_PI2, sin_PI2, cos_0, sin_0, X1, X2.
    apply m_eq; cbn [r0 r1 r2]; apply v3_eq; cbn [vx vy vz]; lra.
  - assert (c = 1) as ->. { clear - L1  F1. nra. }
    assert (f = 0) as -> by (clear - A3; nra). assert (i = 0) as -> by (clear - A3; nra).
    assert (a = 0) as -> by (clear - F1; nra). assert (b = 0) as -> by (clear - F1; nra).
    destruct (atan2_spec e d 1) as [X1 X2]; [lra|lra|].
    unfold rot_xyz. rewrite cos_PI2, sin_PI2, cos_0, sin_0, X1, X2.
    apply m_eq; cbn [r0 r1 r2]; apply v3_eq; cbn [vx vy vz]; lra.
Qed.

Lemma rot_xyz_mul x y z : rot_xyz x y z = mmul (rot_x x) (mmul (rot_y y) (rot_z z)).
Proof. unfold rot_xyz, rot_x, rot_y, rot_z. unf. apply m_eq; cbn [r0 r1 r2]; apply v3_eq; cbn [vx vy vz]; ring. Qed.
