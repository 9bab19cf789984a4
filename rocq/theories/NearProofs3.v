(** Proofs about NearModel.v: lines and circles in the plane. *)
From Verif Require Import Outcome BoxModel GeoModel RotSpec RotProofs NearModel NearSpec NearProofs.
From Coq Require Import Reals Lra Psatz.
Local Open Scope R_scope.

Lemma lsq2_pos a b : a ≠ b → 0 < lsq2 (sub2 b a).
Proof.
  destruct a as [ax ay], b as [bx by0]. intros Hne. unfold lsq2, dot2, sub2; simpl.
  destruct (Req_dec ax bx) as [->|Hx].
  - destruct (Req_dec ay by0) as [->|Hy]; [done|].
    assert (0 < (by0 - ay) * (by0 - ay)) by (apply Rsqr_pos_lt; intros ?; apply Hy; lra). nra.
  - assert (0 < (bx - ax) * (bx - ax)) by (apply Rsqr_pos_lt; intros ?; apply Hx; lra).
    pose proof (Rle_0_sqr (by0 - ay)). unfold Rsqr in *. lra.
Qed.
Lemma line_circle_ok p0 p1 r l :
  p0 ≠ p1 → intersect_line_circle p0 p1 r = Ok l → length l ≠ 1%nat →
  ∀ t, on_circle (V2 0 0) r (line2 p0 p1 t) ↔ t ∈ l.
Proof.
  intros Hne. pose proof (lsq2_pos p0 p1 Hne) as Hd. unfold intersect_line_circle.
  set (dl2 := lsq2 (sub2 p1 p0)) in *. set (dp := dot2 (sub2 p1 p0) p0).
  set (delta := dp * dp - dl2 * (dot2 p0 p0 - r * r)). pose proof eps_pos as Heps.
  assert (Hc : ∀ t, on_circle (V2 0 0) r (line2 p0 p1 t) ↔ (dl2 * t + dp) ^ 2 = delta).
  { intros t. unfold on_circle, line2, delta, dl2, dp in *. destruct p0 as [ax ay], p1 as [bx by0].
    unfold lsq2, dot2, sub2 in *; simpl in *.
    set (D := (bx - ax) * (bx - ax) + (by0 - ay) * (by0 - ay)) in *.
    assert (E : (D * t + ((bx - ax) * ax + (by0 - ay) * ay)) * ((D * t + ((bx - ax) * ax + (by0 - ay) * ay)) * 1)
      - (((bx - ax) * ax + (by0 - ay) * ay) * ((bx - ax) * ax + (by0 - ay) * ay) - D * (ax * ax + ay * ay - r * r))
      = D * ((ax + t * (bx - ax) - 0) * ((ax + t * (bx - ax) - 0) * 1) + (ay + t * (by0 - ay) - 0) * ((ay + t * (by0 - ay) - 0) * 1) - r * (r * 1))).
    { unfold D. ring. }
    split; intros H.
    - rewrite H in E. lra.
    - rewrite H in E. rewrite Rminus_diag_eq in E by done. symmetry in E. apply Rmult_integral in E. lra. }
  destruct (rltb delta 0) eqn:E0; [apply rltb_true in E0|apply rltb_false in E0].
  - intros [= <-] _ t. rewrite Hc. split; [|intros H; inversion H].
    intros H. pose proof (pow2_ge_0 (dl2 * t + dp)). lra.
  - destruct (rltb eps delta) eqn:E1; [apply rltb_true in E1|intros [= <-]; done].
    unfold rdiv. destruct Req_EM_T as [|_]; [lra|]. cbn [mbind res_bind]. intros [= <-] _ t. rewrite Hc.
    assert (Hs : sqrt delta * sqrt delta = delta) by (apply sqrt_sqrt; lra).
    rewrite !elem_of_cons, elem_of_nil.
    replace (- (dp + sqrt delta) * (1 / dl2)) with ((- dp - sqrt delta) / dl2) by (field; lra).
    replace (- (dp - sqrt delta) * (1 / dl2)) with ((- dp + sqrt delta) / dl2) by (field; lra).
    assert (Hdiv : ∀ y, t = y / dl2 ↔ dl2 * t = y).
    { intros y. split; [intros ->; field; lra|intros <-; field; lra]. }
    rewrite !Hdiv. split.
    + intros H. assert ((dl2 * t + dp - sqrt delta) * (dl2 * t + dp + sqrt delta) = 0) as Hz by (simpl in H; lra).
      apply Rmult_integral in Hz as [Hz|Hz]; [right; left|left]; lra.
    + intros [H|[H|[]]]; rewrite H; simpl; nra.
Qed.
Lemma line_circle_defined p0 p1 r : p0 ≠ p1 → ∃ l, intersect_line_circle p0 p1 r = Ok l ∧ (length l <= 2)%nat.
Proof.
  intros Hne. pose proof (lsq2_pos p0 p1 Hne) as Hd. unfold intersect_line_circle.
  destruct rltb; [eexists; split; [done|simpl; lia]|]. destruct rltb; [|eexists; split; [done|simpl; lia]].
  unfold rdiv. destruct Req_EM_T; [lra|]. eexists. split; [done|simpl; lia].
Qed.

Lemma sq_le_le x y : 0 <= y → x * x <= y * y → x <= y.
Proof. intros. nra. Qed.

Lemma circle_circle_ok A ra B rb n x y :
  0 <= ra → 0 <= rb → eps <= lsq2 (sub2 B A) ∨ eps <= ra - rb →
  intersect_circle_circle A ra B rb = Ok (n, x, y) →
  if decide (n = 0%nat) then ∀ z, ¬ (on_circle A ra z ∧ on_circle B rb z)
  else ∀ z, (on_circle A ra z ∧ on_circle B rb z) ↔ z = x ∨ z = y.
Proof.
  intros Hra Hrb Hfar. unfold intersect_circle_circle. pose proof eps_pos as Heps.
  destruct A as [ax ay], B as [bx by0].
  set (lu2 := lsq2 (sub2 (V2 bx by0) (V2 ax ay))) in *.
  assert (Elu : lu2 = (bx - ax) * (bx - ax) + (by0 - ay) * (by0 - ay)) by done.
  assert (Hlu : 0 <= lu2).
  { rewrite Elu. pose proof (Rle_0_sqr (bx - ax)). pose proof (Rle_0_sqr (by0 - ay)). unfold Rsqr in *. lra. }
  destruct (rltb lu2 eps && rltb (ra - rb) eps) eqn:E0.
  { apply andb_prop in E0 as [E1 E2]. apply rltb_true in E1, E2. destruct Hfar; lra. }
  clear E0.
  assert (Hdiff : ∀ z, on_circle (V2 ax ay) ra z → on_circle (V2 bx by0) rb z →
    let p := ux z - ax in let q := uy z - ay in
    p * p + q * q = ra * ra ∧ 2 * ((bx - ax) * p + (by0 - ay) * q) = ra * ra - rb * rb + lu2).
  { intros [zx zy] Hz1 Hz2. unfold on_circle in *; simpl in *. rewrite Elu. split; nra. }
  destruct (rltb lu2 ((ra - rb) * (ra - rb)) || rltb ((ra + rb) * (ra + rb)) lu2) eqn:E1.
  { intros [= <- <- <-]. simpl. intros z (Hz1 & Hz2). destruct (Hdiff z Hz1 Hz2) as [D1 D2].
    set (p := ux z - ax) in *. set (q := uy z - ay) in *. set (u := bx - ax) in *. set (v := by0 - ay) in *.
    assert (L : (u * p + v * q) * (u * p + v * q) + (u * q - v * p) * (u * q - v * p) = lu2 * (ra * ra)).
    { rewrite Elu, <- D1. ring. }
    assert (L' : (ra * ra - rb * rb + lu2) * (ra * ra - rb * rb + lu2) <= 4 * lu2 * (ra * ra)).
    { rewrite <- D2. pose proof (Rle_0_sqr (u * q - v * p)). unfold Rsqr in *. lra. }
    assert (L2 : (lu2 - (ra - rb) * (ra - rb)) * (lu2 - (ra + rb) * (ra + rb)) <= 0) by lra.
    assert ((ra - rb) * (ra - rb) <= (ra + rb) * (ra + rb)) by nra.
    apply orb_prop in E1 as [E1|E1]; apply rltb_true in E1; nra. }
  apply orb_false_iff in E1 as [E1 E2]. apply rltb_false in E1, E2.
  assert (Hpos : 0 < lu2).
  { destruct (Rle_lt_or_eq_dec 0 lu2 Hlu) as [|H0]; [done|]. assert (ra - rb = 0) by nra. destruct Hfar; lra. }
  unfold rdiv. destruct Req_EM_T as [|_]; [lra|]. cbn [mbind res_bind].
  set (s := ((ra * ra - rb * rb) * (1 / lu2) + 1) * / 2).
  set (w := ra * ra * (1 / lu2) - s * s).
  assert (Hs : 2 * s * lu2 = ra * ra - rb * rb + lu2) by (unfold s; field; lra).
  assert (Hw : 4 * lu2 * lu2 * w = - ((lu2 - (ra - rb) * (ra - rb)) * (lu2 - (ra + rb) * (ra + rb)))).
  { unfold w, s. field. lra. }
  assert (Hw0 : 0 <= w).
  { assert (0 <= 4 * lu2 * lu2 * w) by (rewrite Hw; nra). assert (0 < 4 * lu2 * lu2) by nra.
    apply Rnot_lt_le. intros Hlt. nra. }
  rewrite Rmax_right by done.
  set (t := sqrt w). assert (Ht : t * t = w) by (apply sqrt_sqrt; done).
  assert (Hst : lu2 * (s * s + t * t) = ra * ra) by (rewrite Ht; unfold w; field; lra).
  intros [= Hn <- <-]. assert (n ≠ 0%nat) as Hn0 by (destruct (rltb eps t); lia).
  rewrite decide_False by done. clear Hn Hn0.
  unfold add2, scl2, orth2, sub2; cbn [ux uy].
  set (u := bx - ax) in *. set (v := by0 - ay) in *.
  intros [zx zy]. split.
  - intros (Hz1 & Hz2). destruct (Hdiff (V2 zx zy) Hz1 Hz2) as [D1 D2]. cbn [ux uy] in *.
    set (p := zx - ax) in *. set (q := zy - ay) in *.
    assert (G1 : u * p + v * q = s * lu2) by lra.
    assert (G2 : (v * p - u * q) * (v * p - u * q) = (t * lu2) * (t * lu2)).
    { assert ((u * p + v * q) * (u * p + v * q) + (v * p - u * q) * (v * p - u * q) = lu2 * (ra * ra)) as L.
      { rewrite Elu, <- D1. ring. }
      rewrite G1 in L. rewrite <- Hst in L. lra. }
    assert (G3 : v * p - u * q = t * lu2 ∨ v * p - u * q = - (t * lu2)).
    { assert ((v * p - u * q - t * lu2) * (v * p - u * q + t * lu2) = 0) as Z by lra.
      apply Rmult_integral in Z as [Z|Z]; [left|right]; lra. }
    assert (K : ∀ k, v * p - u * q = - (k * lu2) → p = s * u + k * - v ∧ q = s * v + k * u).
    { intros k Hk. split; apply Rmult_eq_reg_l with lu2; try lra.
      - transitivity (u * (u * p + v * q) + v * (v * p - u * q)); [rewrite Elu; ring|rewrite G1, Hk; ring].
      - transitivity (v * (u * p + v * q) - u * (v * p - u * q)); [rewrite Elu; ring|rewrite G1, Hk; ring]. }
    destruct G3 as [G|G].
    + right. destruct (K (- t) ltac:(lra)). f_equal; unfold p, q in *; lra.
    + left. destruct (K t ltac:(lra)). f_equal; unfold p, q in *; lra.
  - assert (K : ∀ k, k * k = t * t → on_circle (V2 ax ay) ra (V2 (ax + s * u + k * - v) (ay + s * v + k * u)) ∧
        on_circle (V2 bx by0) rb (V2 (ax + s * u + k * - v) (ay + s * v + k * u))).
    { intros k Hk. unfold on_circle; cbn [ux uy]. split.
      - transitivity (lu2 * (s * s + k * k)); [rewrite Elu; ring|rewrite Hk, Hst; ring].
      - replace bx with (ax + u) by (unfold u; ring). replace by0 with (ay + v) by (unfold v; ring).
        transitivity (lu2 * (s * s + k * k) - 2 * s * lu2 + lu2); [rewrite Elu; ring|rewrite Hk, Hst, Hs; ring]. }
    intros [[= -> ->]|[= -> ->]].
    + destruct (K t eq_refl). auto.
    + destruct (K (- t) ltac:(ring)) as [K1 K2].
      replace (ax + s * u + - t * - v) with (ax + s * u - t * - v) in * by ring.
      replace (ay + s * v + - t * u) with (ay + s * v - t * u) in * by ring. auto.
Qed.
Lemma circle_circle_defined A ra B rb :
  eps <= lsq2 (sub2 B A) ∨ eps <= ra - rb → ∃ r, intersect_circle_circle A ra B rb = Ok r.
Proof.
  intros Hfar. unfold intersect_circle_circle. pose proof eps_pos as Heps.
  destruct (_ && _) ; [eauto|]. destruct (_ || _) eqn:E; [eauto|].
  apply orb_false_iff in E as [E1 _]. apply rltb_false in E1.
  unfold rdiv. destruct Req_EM_T as [H|]; [|eauto]. exfalso.
  rewrite H in *. destruct Hfar; nra.
Qed.
