(** Integrals behind volumes and moments of inertia. *)
From Coquelicot Require Import Coquelicot.
From Verif Require Import Outcome BoxModel GeoModel RotSpec RotProofs MassModel MassSpec.
From Coq Require Import Reals Lra Psatz Nsatz.
Local Open Scope R_scope.

Ltac toR := match goal with |- @eq _ ?a ?b => let H := fresh in enough (H : @eq R a b) by exact H end.

Lemma poly_int c0 c1 c2 c3 c4 a b :
  is_RInt (λ x, c0 + c1 * x + c2 * (x * x) + c3 * (x * x * x) + c4 * (x * x * x * x)) a b
    ((c0 * b + c1 / 2 * (b * b) + c2 / 3 * (b * b * b) + c3 / 4 * (b * b * b * b) + c4 / 5 * (b * b * b * b * b)) -
     (c0 * a + c1 / 2 * (a * a) + c2 / 3 * (a * a * a) + c3 / 4 * (a * a * a * a) + c4 / 5 * (a * a * a * a * a))).
Proof.
  apply (is_RInt_derive (λ x, c0 * x + c1 / 2 * (x * x) + c2 / 3 * (x * x * x) + c3 / 4 * (x * x * x * x) + c4 / 5 * (x * x * x * x * x))).
  - intros x _. auto_derive; [done|]. field.
  - intros x _.
    apply (ex_derive_continuous (λ x, c0 + c1 * x + c2 * (x * x) + c3 * (x * x * x) + c4 * (x * x * x * x))).
    auto_derive. done.
Qed.
(** The same, for a function that is a polynomial between the limits. *)
Lemma poly_int' c0 c1 c2 c3 c4 f a b i :
  (∀ x, Rmin a b < x < Rmax a b → f x = c0 + c1 * x + c2 * (x * x) + c3 * (x * x * x) + c4 * (x * x * x * x)) →
  i = ((c0 * b + c1 / 2 * (b * b) + c2 / 3 * (b * b * b) + c3 / 4 * (b * b * b * b) + c4 / 5 * (b * b * b * b * b)) -
     (c0 * a + c1 / 2 * (a * a) + c2 / 3 * (a * a * a) + c3 / 4 * (a * a * a * a) + c4 / 5 * (a * a * a * a * a))) →
  is_RInt f a b i.
Proof.
  intros E ->. eapply is_RInt_ext; [|apply poly_int]. intros x Hx. symmetry. by apply E.
Qed.

(** Chords of a circle. *)
Lemma half_sin : sin (- (PI / 2)) = -1 ∧ cos (- (PI / 2)) = 0.
Proof. rewrite sin_neg, cos_neg, sin_PI2, cos_PI2. split; ring. Qed.
Lemma chord_int r2 al be ga de : 0 <= r2 →
  is_RInt (λ y, (al + be * y + ga * (y * y)) * sqrt (r2 - y * y) +
      de * (sqrt (r2 - y * y) * sqrt (r2 - y * y) * sqrt (r2 - y * y)))
    (- sqrt r2) (sqrt r2) (PI * (al * r2 / 2 + ga * (r2 * r2) / 8 + 3 * de * (r2 * r2) / 8)).
Proof.
  intros P. set (f := λ y, _). set (s := sqrt r2).
  assert (s * s = r2) as Es by (by apply sqrt_sqrt). assert (0 <= s) as Ps by apply sqrt_pos.
  assert (∀ y, continuous f y) as Cf.
  { intros y. unfold f.
    assert (continuous (λ y, sqrt (r2 - y * y)) y) as Cs.
    { apply (continuous_comp (λ y, r2 - y * y) sqrt); [|apply continuous_sqrt].
      apply (ex_derive_continuous (λ y, r2 - y * y)). auto_derive. done. }
    apply (continuous_plus (V := R_NormedModule)).
    - apply (continuous_mult (K := R_AbsRing)); [|done].
      apply (ex_derive_continuous (λ y, al + be * y + ga * (y * y))). auto_derive. done.
    - apply (continuous_mult (K := R_AbsRing)); [apply continuous_const|].
      apply (continuous_mult (K := R_AbsRing)); [|done]. by apply (continuous_mult (K := R_AbsRing)). }
  assert (is_RInt (λ t, scal (s * cos t) (f (s * sin t))) (- (PI / 2)) (PI / 2) (RInt f (s * sin (- (PI / 2))) (s * sin (PI / 2)))) as Sub.
  { apply (is_RInt_comp f (λ t, s * sin t) (λ t, s * cos t)).
    - intros x _. apply Cf.
    - intros x _. split; [auto_derive; [done|ring]|].
      apply (ex_derive_continuous (λ t, s * cos t)). auto_derive. done. }
  destruct half_sin as [E1 E2]. rewrite E1, sin_PI2 in Sub.
  replace (s * -1) with (- s) in Sub by ring. replace (s * 1) with s in Sub by ring.
  pose proof PI_RGT_0 as PP.
  set (G := λ t, s * s * (al * (t / 2 + sin t * cos t / 2) - be * s * (cos t * cos t * cos t / 3)
      + ga * (s * s) * (t / 8 - sin t * cos t * (cos t * cos t - sin t * sin t) / 8))
      + de * (s * s * (s * s)) * (3 * t / 8 + sin t * (cos t * cos t * cos t) / 4 + 3 * (sin t * cos t) / 8)).
  assert (is_RInt (λ t, s * cos t * ((al + be * (s * sin t) + ga * (s * sin t * (s * sin t))) * (s * cos t)
      + de * (s * cos t * (s * cos t) * (s * cos t)))) (- (PI / 2)) (PI / 2) (G (PI / 2) - G (- (PI / 2)))) as Val.
  { apply (is_RInt_derive G).
    - intros t _. unfold G. auto_derive; [done|].
      pose proof (sin2_cos2 t) as E. unfold Rsqr in E.
      apply Rminus_diag_uniq.
      match goal with |- ?e = 0 => set (goal := e) end.
      assert (∃ S C, sin t = S ∧ cos t = C ∧ S * S + C * C = 1) as (S & C & HS & HC & H1) by eauto.
      subst goal. rewrite HS, HC.
      assert (C * C = 1 - S * S) as H2 by lra.
      field_simplify. 
      replace (C ^ 4) with ((1 - S * S) * (1 - S * S)) by (rewrite <- H2; ring).
      replace (C ^ 3) with (C * (1 - S * S)) by (rewrite <- H2; ring).
      replace (C ^ 2) with (1 - S * S) by (rewrite <- H2; ring).
      field.
    - intros t _. match goal with |- continuous ?F _ => apply (ex_derive_continuous F) end. auto_derive. done. }
  assert (RInt f (- s) s = G (PI / 2) - G (- (PI / 2))) as Ev.
  { rewrite <- (is_RInt_unique _ _ _ _ Sub). apply is_RInt_unique. eapply is_RInt_ext; [|exact Val].
    intros t [T1 T2]. rewrite Rmin_left in T1 by lra. rewrite Rmax_right in T2 by lra.
    unfold f. change (scal ?a ?b) with (a * b). f_equal.
    assert (sqrt (r2 - s * sin t * (s * sin t)) = s * cos t) as ->; [|done].
    replace (r2 - s * sin t * (s * sin t)) with ((s * cos t) * (s * cos t)).
    - apply sqrt_square. apply Rmult_le_pos; [done|]. apply cos_ge_0; lra.
    - pose proof (sin2_cos2 t) as E. unfold Rsqr in E. rewrite <- Es.
      replace (s * cos t * (s * cos t)) with (s * s * (cos t * cos t)) by ring.
      replace (cos t * cos t) with (1 - sin t * sin t) by lra. ring. }
  replace (PI * _) with (RInt f (- s) s).
  - apply (RInt_correct f). apply (ex_RInt_continuous f). intros y _. apply Cf.
  - rewrite Ev. unfold G. rewrite E1, E2, sin_PI2, cos_PI2. rewrite <- Es. toR. field.
Qed.

(** * Boxes *)
Lemma box_poly h f (k c1 c2 c3 a11 a22 a33 a12 a13 a23 : R) i :
  0 <= vx h → 0 <= vy h → 0 <= vz h →
  (∀ x y z, f (V3 x y z) = k + c1 * x + c2 * y + c3 * z + a11 * (x * x) + a22 * (y * y) + a33 * (z * z)
     + a12 * (x * y) + a13 * (x * z) + a23 * (y * z)) →
  i = 8 * (vx h * vy h * vz h) * (k + (a11 * (vx h * vx h) + a22 * (vy h * vy h) + a33 * (vz h * vz h)) / 3) →
  s_box h f i.
Proof.
  destruct h as [h1 h2 h3]. simpl. intros P1 P2 P3 Hf Hi. repeat split; simpl; [lra|intros; lra|intros; lra|].
  exists (λ x y, 2 * h3 * (k + c1 * x + c2 * y + a11 * (x * x) + a22 * (y * y) + a12 * (x * y) + a33 * (h3 * h3) / 3)).
  exists (λ x, 4 * h2 * h3 * (k + c1 * x + a11 * (x * x) + a22 * (h2 * h2) / 3 + a33 * (h3 * h3) / 3)).
  split_and!.
  - intros x y _ _.
    apply (poly_int' (k + c1 * x + c2 * y + a11 * (x * x) + a22 * (y * y) + a12 * (x * y)) (c3 + a13 * x + a23 * y) a33 0 0).
    + intros z _. rewrite Hf. ring.
    + field.
  - intros x _.
    apply (poly_int' (2 * h3 * (k + c1 * x + a11 * (x * x) + a33 * (h3 * h3) / 3)) (2 * h3 * (c2 + a12 * x)) (2 * h3 * a22) 0 0).
    + intros y _. field.
    + field.
  - apply (poly_int' (4 * h2 * h3 * (k + a22 * (h2 * h2) / 3 + a33 * (h3 * h3) / 3)) (4 * h2 * h3 * c1) (4 * h2 * h3 * a11) 0 0).
    + intros y _. field.
    + rewrite Hi. field.
Qed.

(** * Solids of revolution *)
Lemma rev_poly a lo hi r2 f (c0 c1 c2 : R → R) (d1 d2 d3 : R) i :
  lo <= hi → (∀ x, lo <= x <= hi → 0 <= r2 x) →
  (∀ x y z, f (pt a x y z) = c0 x + c1 x * y + c2 x * z + d1 * (y * y) + d2 * (z * z) + d3 * (y * z)) →
  is_RInt (λ x, PI * (c0 x * r2 x + (d1 + d2) * (r2 x * r2 x) / 4)) lo hi i →
  s_revolved a lo hi r2 f i.
Proof.
  intros L P Hf Hi. split; [done|]. split.
  { intros x Hx. pose proof (sqrt_pos (r2 x)). lra. }
  split. { intros x y Hx _. pose proof (sqrt_pos (r2 x - y * y)). lra. }
  exists (λ x y, (2 * c0 x + 2 * c1 x * y + 2 * d1 * (y * y)) * sqrt (r2 x - y * y) +
    2 / 3 * d2 * (sqrt (r2 x - y * y) * sqrt (r2 x - y * y) * sqrt (r2 x - y * y))).
  exists (λ x, PI * (c0 x * r2 x + (d1 + d2) * (r2 x * r2 x) / 4)).
  split_and!; [| |exact Hi].
  - intros x y _ _. apply (poly_int' (c0 x + c1 x * y + d1 * (y * y)) (c2 x + d3 * y) d2 0 0).
    + intros z _. rewrite Hf. ring.
    + field.
  - intros x Hx.
    evar_last; [apply (chord_int (r2 x) (2 * c0 x) (2 * c1 x) (2 * d1) (2 / 3 * d2)); by apply P|].
    toR. field.
Qed.

(** Moments of a solid of revolution. *)
Lemma arm_pt a u1 u2 u3 x y z :
  lsq (cross3 (pt a u1 u2 u3) (pt a x y z)) =
  (u2 * u2 + u3 * u3) * (x * x) + (- (2 * u1 * u2 * x)) * y + (- (2 * u1 * u3 * x)) * z
  + (u1 * u1 + u3 * u3) * (y * y) + (u1 * u1 + u2 * u2) * (z * z) + (- (2 * u2 * u3)) * (y * z).
Proof. destruct a; unfold pt, lsq, dot3, cross3; simpl; ring. Qed.
Lemma pt_surj a u : ∃ x y z, u = pt a x y z.
Proof. destruct a, u as [x y z]; unfold pt; eauto. Qed.

Lemma rev_volume a lo hi r2 v : lo <= hi → (∀ x, lo <= x <= hi → 0 <= r2 x) →
  is_RInt r2 lo hi v → is_volume (s_revolved a lo hi r2) (PI * v).
Proof.
  intros L P Hv. apply (rev_poly a lo hi r2 _ (λ _, 1) (λ _, 0) (λ _, 0) 0 0 0); try done.
  - intros. ring.
  - eapply is_RInt_ext; [|apply (is_RInt_scal (V := R_NormedModule) r2 lo hi PI v Hv)].
    intros x _. unfold scal; simpl. unfold Hierarchy.mult; simpl. toR. field.
Qed.
Lemma rev_inertia a lo hi r2 v m2 m4 mass i : lo <= hi → (∀ x, lo <= x <= hi → 0 <= r2 x) →
  is_RInt r2 lo hi v → is_RInt (λ x, x * x * r2 x) lo hi m2 → is_RInt (λ x, r2 x * r2 x) lo hi m4 →
  v ≠ 0 →
  i = by_axis a (mass / v * (m4 / 2)) (mass / v * (m2 + m4 / 4)) →
  is_inertia (s_revolved a lo hi r2) mass (mdiag i).
Proof.
  intros L P Hv H2 H4 V0 ->. split; [by destruct a|].
  pose proof PI_RGT_0 as PP.
  exists (PI * v). split; [by apply rev_volume|]. split; [nra|]. intros u.
  destruct (pt_surj a u) as (u1 & u2 & u3 & ->).
  set (k := mass / (PI * v)).
  apply (rev_poly a lo hi r2 _ (λ x, k * ((u2 * u2 + u3 * u3) * (x * x))) (λ x, k * (- (2 * u1 * u2 * x)))
     (λ x, k * (- (2 * u1 * u3 * x))) (k * (u1 * u1 + u3 * u3)) (k * (u1 * u1 + u2 * u2)) (k * (- (2 * u2 * u3)))); try done.
  - intros. rewrite arm_pt. ring.
  - pose proof (is_RInt_scal (V := R_NormedModule) _ lo hi (PI * k * (u2 * u2 + u3 * u3)) _ H2) as I2.
    pose proof (is_RInt_scal (V := R_NormedModule) _ lo hi (PI * k * (2 * (u1 * u1) + u2 * u2 + u3 * u3) / 4) _ H4) as I4.
    pose proof (is_RInt_plus _ _ _ _ _ _ I2 I4) as I.
    evar_last.
    + eapply is_RInt_ext; [|exact I]. intros x _.
      unfold scal, Hierarchy.plus; simpl. unfold Hierarchy.mult; simpl.
      toR. field.
    + unfold scal, Hierarchy.plus; simpl. unfold Hierarchy.mult; simpl. toR.
      unfold k. destruct a; unfold pt, by_axis, mdiag, mvec, dot3; simpl; field; split; try done; lra.
Qed.

(** * The solids of the engine *)
Lemma mul_sq2 h : scl 2 h = V3 (2 * vx h) (2 * vy h) (2 * vz h).
Proof. by destruct h. Qed.
Lemma box_volume_ok h : 0 <= vx h → 0 <= vy h → 0 <= vz h → is_volume (s_box h) (box_volume (scl 2 h)).
Proof.
  intros. apply (box_poly h _ 1 0 0 0 0 0 0 0 0 0); try done; [intros; ring|].
  unfold box_volume, scl. simpl. field.
Qed.
Lemma box_inertia_ok h mass : 0 < vx h → 0 < vy h → 0 < vz h →
  is_inertia (s_box h) mass (mdiag (inertia_solid_box mass (scl 2 h))).
Proof.
  intros P1 P2 P3. split; [done|]. exists (box_volume (scl 2 h)).
  split; [apply box_volume_ok; lra|]. destruct h as [h1 h2 h3]. simpl in P1, P2, P3.
  assert (0 < h1 * h2 * h3) by (repeat apply Rmult_lt_0_compat; done).
  assert (box_volume (scl 2 (V3 h1 h2 h3)) = 8 * (h1 * h2 * h3)) as -> by (unfold box_volume, scl; simpl; ring).
  split; [lra|]. intros [u1 u2 u3]. set (k := mass / (8 * (h1 * h2 * h3))).
  apply (box_poly _ _ 0 0 0 0 (k * (u2 * u2 + u3 * u3)) (k * (u1 * u1 + u3 * u3)) (k * (u1 * u1 + u2 * u2))
    (k * (- (2 * u1 * u2))) (k * (- (2 * u1 * u3))) (k * (- (2 * u2 * u3)))); simpl; try lra.
  - intros. unfold lsq, dot3, cross3. simpl. ring.
  - unfold mdiag, mvec, inertia_solid_box, scl, dot3, k. simpl. field. split_and!; lra.
Qed.

Lemma sphere_rev r a : 0 < r → ∃ v m2 m4,
  (∀ x, - r <= x <= r → 0 <= r * r - x * x) ∧
  is_RInt (λ x, r * r - x * x) (- r) r v ∧ is_RInt (λ x, x * x * (r * r - x * x)) (- r) r m2 ∧
  is_RInt (λ x, (r * r - x * x) * (r * r - x * x)) (- r) r m4 ∧ 0 < v ∧
  PI * v = sphere_volume r ∧
  ∀ mass, by_axis a (mass / v * (m4 / 2)) (mass / v * (m2 + m4 / 4)) =
    V3 (inertia_solid_sphere mass r) (inertia_solid_sphere mass r) (inertia_solid_sphere mass r).
Proof.
  intros P. exists (4 / 3 * (r * r * r)), (4 / 15 * (r * r * r * r * r)), (16 / 15 * (r * r * r * r * r)).
  assert (0 < r * r * r) by (repeat apply Rmult_lt_0_compat; done).
  split_and!.
  - intros x Hx. nra.
  - apply (poly_int' (r * r) 0 (-1) 0 0); [intros; ring|field].
  - apply (poly_int' 0 0 (r * r) 0 (-1)); [intros; ring|field].
  - apply (poly_int' (r * r * (r * r)) 0 (- (2 * (r * r))) 0 1); [intros; ring|field].
  - lra.
  - unfold sphere_volume. field.
  - intros mass. unfold inertia_solid_sphere. destruct a; simpl; f_equal; field; lra.
Qed.
Lemma sphere_volume_ok r : 0 < r → is_volume (s_sphere r) (sphere_volume r).
Proof.
  intros P. destruct (sphere_rev r AX P) as (v & m2 & m4 & Pr & Iv & I2 & I4 & V0 & <- & _).
  apply rev_volume; [lra|done|done].
Qed.
Lemma sphere_inertia_ok r mass : 0 < r →
  is_inertia (s_sphere r) mass (mscale (inertia_solid_sphere mass r) mid).
Proof.
  intros P. destruct (sphere_rev r AX P) as (v & m2 & m4 & Pr & Iv & I2 & I4 & V0 & _ & E).
  replace (mscale (inertia_solid_sphere mass r) mid) with
    (mdiag (V3 (inertia_solid_sphere mass r) (inertia_solid_sphere mass r) (inertia_solid_sphere mass r))).
  - eapply rev_inertia with (a := AX); [lra|exact Pr|exact Iv|exact I2|exact I4|lra|]. symmetry. apply E.
  - unfold mscale, mid, mdiag, scl. simpl. f_equal; f_equal; ring.
Qed.

Lemma cylinder_rev r hl : 
  is_RInt (λ _, r * r) (- hl) hl (2 * hl * (r * r)) ∧
  is_RInt (λ x, x * x * (r * r)) (- hl) hl (2 / 3 * (hl * hl * hl) * (r * r)) ∧
  is_RInt (λ _ : R, (r * r) * (r * r)) (- hl) hl (2 * hl * (r * r * (r * r))).
Proof.
  split_and!.
  - apply (poly_int' (r * r) 0 0 0 0); [intros; ring|field].
  - apply (poly_int' 0 0 (r * r) 0 0); [intros; ring|field].
  - apply (poly_int' (r * r * (r * r)) 0 0 0 0); [intros; ring|field].
Qed.
Lemma cylinder_volume_ok a r hl : 0 <= hl →
  is_volume (s_cylinder a r hl) (cylinder_volume r (hl * 2)).
Proof.
  intros P. destruct (cylinder_rev r hl) as (Iv & _ & _).
  replace (cylinder_volume r (hl * 2)) with (PI * (2 * hl * (r * r))) by (unfold cylinder_volume; ring).
  apply rev_volume; [lra| |done]. intros. nra.
Qed.
Lemma cylinder_inertia_ok a r hl mass : 0 < r → 0 < hl →
  is_inertia (s_cylinder a r hl) mass (mdiag (inertia_solid_cylinder mass (hl * 2) r a)).
Proof.
  intros P Q. destruct (cylinder_rev r hl) as (Iv & I2 & I4).
  assert (0 < hl * (r * r)) by (repeat apply Rmult_lt_0_compat; done).
  eapply rev_inertia; try done; [lra| |lra|].
  - intros. nra.
  - unfold inertia_solid_cylinder. destruct a; simpl; f_equal; field; lra.
Qed.

(** Capsules: the profile is a polynomial on each of three pieces. *)
Lemma int_sum3 (f : R → R) a b c d i j k : is_RInt f a b i → is_RInt f b c j → is_RInt f c d k → is_RInt f a d (i + j + k).
Proof. intros I J K. apply (is_RInt_Chasles f a c d (i + j) k); [|done]. by apply (is_RInt_Chasles f a b c i j). Qed.
Definition cap_r2 (r hl x : R) : R := r * r - Rmax 0 (Rabs x - hl) * Rmax 0 (Rabs x - hl).
Lemma cap_low r hl x : 0 <= hl → x < - hl → cap_r2 r hl x = r * r - (x + hl) * (x + hl).
Proof. intros P Q. unfold cap_r2. rewrite Rabs_left, Rmax_right by lra. ring. Qed.
Lemma cap_mid r hl x : 0 <= hl → - hl <= x <= hl → cap_r2 r hl x = r * r.
Proof. intros P Q. unfold cap_r2. rewrite Rmax_left; [ring|]. unfold Rabs. destruct (Rcase_abs x); lra. Qed.
Lemma cap_high r hl x : 0 <= hl → hl < x → cap_r2 r hl x = r * r - (x - hl) * (x - hl).
Proof. intros P Q. unfold cap_r2. rewrite Rabs_right, Rmax_right by lra. ring. Qed.
Lemma cap_pos r hl x : 0 <= r → 0 <= hl → - (hl + r) <= x <= hl + r → 0 <= cap_r2 r hl x.
Proof.
  intros P Q [H1 H2]. destruct (Rlt_dec x (- hl)) as [C|C]; [rewrite cap_low by lra; nra|].
  destruct (Rlt_dec hl x) as [D|D]; [rewrite cap_high by lra; nra|]. rewrite cap_mid by lra. nra.
Qed.
Lemma capsule_rev r hl : 0 < r → 0 < hl →
  is_RInt (cap_r2 r hl) (- (hl + r)) (hl + r) (2 * hl * (r * r) + 4 / 3 * (r * r * r)) ∧
  is_RInt (λ x, x * x * cap_r2 r hl x) (- (hl + r)) (hl + r)
    (2 / 3 * (hl * hl * hl) * (r * r) + 4 / 3 * (hl * hl) * (r * r * r) + hl * (r * r * r * r) + 4 / 15 * (r * r * r * r * r)) ∧
  is_RInt (λ x, cap_r2 r hl x * cap_r2 r hl x) (- (hl + r)) (hl + r)
    (2 * hl * (r * r * (r * r)) + 16 / 15 * (r * r * r * r * r)).
Proof.
  intros P Q.
  assert (∀ x, Rmin (- (hl + r)) (- hl) < x < Rmax (- (hl + r)) (- hl) → x < - hl) as L.
  { intros x. rewrite Rmax_right by lra. lra. }
  assert (∀ x, Rmin (- hl) hl < x < Rmax (- hl) hl → - hl <= x <= hl) as M.
  { intros x. rewrite Rmax_right, Rmin_left by lra. lra. }
  assert (∀ x, Rmin hl (hl + r) < x < Rmax hl (hl + r) → hl < x) as H.
  { intros x. rewrite Rmin_left by lra. lra. }
  split_and!.
  - evar_last.
    + apply (int_sum3 _ _ (- hl) hl).
      * apply (poly_int' (r * r - hl * hl) (- (2 * hl)) (-1) 0 0); [|reflexivity].
        intros x Hx. rewrite cap_low by (first [by apply L|lra]). ring.
      * apply (poly_int' (r * r) 0 0 0 0); [|reflexivity].
        intros x Hx. rewrite cap_mid by (first [by apply M|lra]). ring.
      * apply (poly_int' (r * r - hl * hl) (2 * hl) (-1) 0 0); [|reflexivity].
        intros x Hx. rewrite cap_high by (first [by apply H|lra]). ring.
    + field.
  - evar_last.
    + apply (int_sum3 _ _ (- hl) hl).
      * apply (poly_int' 0 0 (r * r - hl * hl) (- (2 * hl)) (-1)); [|reflexivity].
        intros x Hx. rewrite cap_low by (first [by apply L|lra]). ring.
      * apply (poly_int' 0 0 (r * r) 0 0); [|reflexivity].
        intros x Hx. rewrite cap_mid by (first [by apply M|lra]). ring.
      * apply (poly_int' 0 0 (r * r - hl * hl) (2 * hl) (-1)); [|reflexivity].
        intros x Hx. rewrite cap_high by (first [by apply H|lra]). ring.
    + field.
  - evar_last.
    + apply (int_sum3 _ _ (- hl) hl).
      * apply (poly_int' ((r * r - hl * hl) * (r * r - hl * hl)) (- (4 * hl * (r * r - hl * hl)))
          (4 * (hl * hl) - 2 * (r * r - hl * hl)) (4 * hl) 1); [|reflexivity].
        intros x Hx. rewrite cap_low by (first [by apply L|lra]). ring.
      * apply (poly_int' (r * r * (r * r)) 0 0 0 0); [|reflexivity].
        intros x Hx. rewrite cap_mid by (first [by apply M|lra]). ring.
      * apply (poly_int' ((r * r - hl * hl) * (r * r - hl * hl)) (4 * hl * (r * r - hl * hl))
          (4 * (hl * hl) - 2 * (r * r - hl * hl)) (- (4 * hl)) 1); [|reflexivity].
        intros x Hx. rewrite cap_high by (first [by apply H|lra]). ring.
    + field.
Qed.
Lemma capsule_volume_ok a r hl : 0 < r → 0 < hl →
  is_volume (s_capsule a r hl) (cylinder_volume r (hl * 2) + sphere_volume r).
Proof.
  intros P Q. destruct (capsule_rev r hl P Q) as (Iv & _ & _).
  replace (cylinder_volume r (hl * 2) + sphere_volume r) with (PI * (2 * hl * (r * r) + 4 / 3 * (r * r * r)))
    by (unfold cylinder_volume, sphere_volume; field).
  apply rev_volume; [lra| |done]. intros. apply cap_pos; lra.
Qed.
(** What the tensor of a capsule is. *)
Definition capsule_xx (mass r hl : R) : R :=
  let v := 2 * hl * (r * r) + 4 / 3 * (r * r * r) in
  mass / v * ((2 * hl * (r * r * (r * r)) + 16 / 15 * (r * r * r * r * r)) / 2).
Definition capsule_yy (mass r hl : R) : R :=
  let v := 2 * hl * (r * r) + 4 / 3 * (r * r * r) in
  mass / v * (2 / 3 * (hl * hl * hl) * (r * r) + 4 / 3 * (hl * hl) * (r * r * r) + hl * (r * r * r * r) + 4 / 15 * (r * r * r * r * r)
    + (2 * hl * (r * r * (r * r)) + 16 / 15 * (r * r * r * r * r)) / 4).
Lemma capsule_inertia_true a r hl mass : 0 < r → 0 < hl →
  is_inertia (s_capsule a r hl) mass (mdiag (by_axis a (capsule_xx mass r hl) (capsule_yy mass r hl))).
Proof.
  intros P Q. destruct (capsule_rev r hl P Q) as (Iv & I2 & I4).
  assert (0 < hl * (r * r)) by (repeat apply Rmult_lt_0_compat; done).
  assert (0 < r * r * r) by (repeat apply Rmult_lt_0_compat; done).
  eapply (rev_inertia a); try done; [lra| |lra].
  intros. apply cap_pos; lra.
Qed.
