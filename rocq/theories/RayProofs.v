(** Proofs about RayModel.v: spheres, planes, boxes and polyhedra. *)
From Verif Require Import Outcome BoxModel GeoModel RotSpec RotProofs NearModel NearSpec NearProofs RayModel RaySpec.
From Coq Require Import Reals Lra Psatz.
Local Open Scope R_scope.

Lemma lerp_along p0 p1 t : lerp3 p0 p1 t = along p0 p1 t.
Proof. destruct p0, p1. unfold lerp3, along, add3, scl, sub3; simpl. f_equal; ring. Qed.
Lemma along_0 p0 p1 : along p0 p1 0 = p0.
Proof. destruct p0, p1. unfold along, add3, scl, sub3; simpl. f_equal; ring. Qed.
Lemma ball_sq c r x : 0 <= r → ball c r x ↔ lsq (sub3 x c) <= r * r.
Proof. intros H. unfold ball. symmetry. apply dist_le_r. done. Qed.

Lemma normalize_ok v n : normalize3 v = Ok n → tiny < len v ∧ n = div3 v (len v) ∧ unit3 n.
Proof.
  unfold normalize3, assert_. destruct rltb eqn:E; [|discriminate]. apply rltb_true in E. simpl. intros [= <-].
  split; [done|]. split; [done|]. pose proof tiny_pos. pose proof (len_sq v) as L. unfold unit3.
  transitivity (lsq v / (len v * len v)); [|rewrite <- L; field; lra].
  destruct v. unfold lsq, dot3, div3; simpl. field. lra.
Qed.

(** ** Spheres *)
Lemma sphere_expand p0 p1 c t :
  lsq (sub3 (along p0 p1 t) c) =
  dot3 (sub3 p1 p0) (sub3 p1 p0) * t * t + 2 * dot3 (sub3 p0 c) (sub3 p1 p0) * t + dot3 (sub3 p0 c) (sub3 p0 c).
Proof. destruct p0, p1, c. unfold lsq, along, dot3, sub3, add3, scl; simpl. ring. Qed.

Lemma dot_pos p0 p1 : p0 ≠ p1 → 0 < dot3 (sub3 p1 p0) (sub3 p1 p0).
Proof.
  intros Hne. destruct (Rle_lt_or_eq_dec 0 (dot3 (sub3 p1 p0) (sub3 p1 p0))) as [|H]; [apply lsq_nonneg|done|].
  exfalso. symmetry in H. apply (lsq_zero (sub3 p1 p0)) in H. apply Hne.
  destruct p0, p1. unfold sub3, vec0 in H; simpl in H. injection H as H1 H2 H3. f_equal; lra.
Qed.

Lemma ray_sphere_ok p0 p1 c r :
  p0 ≠ p1 → 0 <= r →
  (intersect_ray_sphere p0 p1 c r = Ok None ∧ ¬ meets_ray (ball c r) p0 p1) ∨
  ∃ t, intersect_ray_sphere p0 p1 c r = Ok (Some t) ∧ ray_entry (ball c r) p0 p1 t ∧
    (¬ ball c r p0 → lsq (sub3 (along p0 p1 t) c) = r * r).
Proof.
  intros Hne Hr. pose proof (dot_pos _ _ Hne) as Ha. unfold intersect_ray_sphere.
  pose proof (sphere_expand p0 p1 c) as E.
  assert (B0 : ball c r p0 ↔ dot3 (sub3 p0 c) (sub3 p0 c) - r * r <= 0).
  { rewrite ball_sq by done. unfold lsq. lra. }
  assert (Bt : ∀ t, ball c r (along p0 p1 t) ↔
     dot3 (sub3 p1 p0) (sub3 p1 p0) * t * t + 2 * dot3 (sub3 p0 c) (sub3 p1 p0) * t + (dot3 (sub3 p0 c) (sub3 p0 c) - r * r) <= 0).
  { intros t. rewrite ball_sq, E by done. lra. }
  set (a := dot3 (sub3 p1 p0) (sub3 p1 p0)) in *. set (b := dot3 (sub3 p0 c) (sub3 p1 p0)) in *.
  set (k := dot3 (sub3 p0 c) (sub3 p0 c) - r * r) in *.
  assert (Ek : dot3 (sub3 p0 c) (sub3 p0 c) = k + r * r) by (unfold k; ring). rewrite Ek in E. clearbody k a b. clear Ek.
  destruct (rltb 0 k && rltb 0 b) eqn:E1.
  { left. split; [done|]. apply andb_prop in E1 as [E1 E2]. apply rltb_true in E1, E2.
    intros (t & Ht & Hb). apply Bt in Hb. assert (0 <= a * t * t) by (rewrite Rmult_assoc; apply Rmult_le_pos; nra). nra. }
  destruct (rltb (b * b - a * k) 0) eqn:E2.
  { left. split; [done|]. apply rltb_true in E2. intros (t & Ht & Hb). apply Bt in Hb.
    assert (0 <= (a * t + b) * (a * t + b)) by apply Rle_0_sqr.
    assert ((a * t + b) * (a * t + b) = a * (a * t * t + 2 * b * t + k) + (b * b - a * k)) by ring. nra. }
  apply rltb_false in E2. right. unfold rdiv. destruct Req_EM_T as [|_]; [lra|]. cbn [mbind res_bind].
  set (s := sqrt (b * b - a * k)). assert (Hs : s * s = b * b - a * k) by (apply sqrt_sqrt; lra).
  assert (Hs0 : 0 <= s) by apply sqrt_pos.
  set (t := (- b - s) / a). assert (Et : a * t = - b - s) by (unfold t; field; lra).
  eexists. split; [done|].
  destruct (Rle_or_lt k 0) as [Hk|Hk].
  - assert (t <= 0). { assert (b * b <= s * s) by nra. assert (- b <= s) by nra. assert (a * t <= 0) by lra. nra. }
    rewrite Rmax_left by lra. split; [|intros H1; exfalso; apply H1, B0; done].
    split; [lra|]. split; [apply Bt; lra|]. intros; lra.
  - assert (b <= 0).
    { apply andb_false_iff in E1 as [E1|E1]; apply rltb_false in E1; lra. }
    assert (Hsb : s <= - b) by nra.
    assert (0 <= t). { unfold t. apply Rmult_le_pos; [lra|]. left. apply Rinv_0_lt_compat. lra. }
    rewrite Rmax_right by lra.
    assert (Hq : a * t * t + 2 * b * t + k = 0).
    { apply Rmult_eq_reg_l with a; [|lra]. replace (a * (a * t * t + 2 * b * t + k)) with ((a * t) * (a * t) + 2 * b * (a * t) + a * k) by ring.
      rewrite Et. nra. }
    split; [|intros _; rewrite E; lra].
    split; [done|]. split; [apply Bt; lra|]. intros t' Ht' Hb. apply Bt in Hb.
    apply Rnot_lt_le. intros Hlt.
    assert (a * (a * t' * t' + 2 * b * t' + k) = (a * t' + b) * (a * t' + b) - s * s) as F by (rewrite Hs; ring).
    assert (a * t' < a * t) by (apply Rmult_lt_compat_l; lra).
    assert (a * t' + b < - s) by lra. assert (s * s < (a * t' + b) * (a * t' + b)) by nra.
    assert (a * (a * t' * t' + 2 * b * t' + k) <= 0) by nra. lra.
Qed.

Lemma ball_outward c r x n :
  0 < r → lsq (sub3 x c) = r * r → n = div3 (sub3 x c) (len (sub3 x c)) → outward (ball c r) x n.
Proof.
  intros Hr Hx ->.
  assert (Hl : len (sub3 x c) = r) by (unfold len; rewrite Hx; apply sqrt_square; lra).
  rewrite Hl. split.
  - unfold unit3. transitivity (lsq (sub3 x c) / (r * r)); [|rewrite Hx; field; lra].
    destruct (sub3 x c). unfold lsq, dot3, div3; simpl. field. lra.
  - intros y Hy. apply ball_sq in Hy; [|lra].
    assert (dot3 (sub3 y x) (div3 (sub3 x c) r) = (dot3 (sub3 y c) (sub3 x c) - lsq (sub3 x c)) / r) as ->.
    { destruct x, y, c. unfold lsq, dot3, div3, sub3; simpl. field. lra. }
    rewrite Hx. apply Rmult_le_reg_r with r; [lra|]. unfold Rdiv. rewrite Rmult_assoc, Rinv_l by lra.
    pose proof (lagrange (sub3 y c) (sub3 x c)) as L. pose proof (lsq_nonneg (cross3 (sub3 y c) (sub3 x c))) as L0.
    rewrite L in L0. fold (lsq (sub3 y c)) in L0. fold (lsq (sub3 x c)) in L0. rewrite Hx in L0.
    set (d := dot3 (sub3 y c) (sub3 x c)) in *. set (u := lsq (sub3 y c)) in *.
    assert (d <= r * r); [|lra]. apply Rnot_lt_le. intros Hc. assert (0 < r * r) by nra.
    assert (r * r * (r * r) < d * d) by nra. assert (u * (r * r) <= r * r * (r * r)) by nra. lra.
Qed.

Lemma sphere_ok r c o :
  rc_p0 c ≠ rc_p1 c → 0 <= r → raycast_sphere r c = Ok o →
  match o with
  | None => ¬ meets_ray (ball (rc_pos c) r) (rc_p0 c) (rc_p1 c)
  | Some h =>
      ray_entry (ball (rc_pos c) r) (rc_p0 c) (rc_p1 c) (h_frac h) ∧ unit3 (h_normal h) ∧
      (¬ ball (rc_pos c) r (rc_p0 c) → outward (ball (rc_pos c) r) (along (rc_p0 c) (rc_p1 c) (h_frac h)) (h_normal h))
  end.
Proof.
  intros Hne Hr. unfold raycast_sphere. destruct (ray_sphere_ok _ _ (rc_pos c) r Hne Hr) as [[-> H]|(t & -> & H & Hs)]; simpl.
  { intros [= <-]. done. }
  destruct (normalize3 _) as [n| | |] eqn:E; simpl; try discriminate. intros [= <-]. simpl.
  rewrite lerp_along in E. destruct (normalize_ok _ _ E) as (Hl & En & Hu). split; [done|]. split; [done|].
  intros Hout. specialize (Hs Hout). apply ball_outward; auto.
  destruct (Rle_lt_or_eq_dec 0 r Hr) as [|<-]; [done|]. exfalso. unfold len in Hl. rewrite Hs in Hl.
  rewrite Rmult_0_l, sqrt_0 in Hl. pose proof tiny_pos. lra.
Qed.
Lemma sphere_defined r c :
  rc_p0 c ≠ rc_p1 c → tiny < r → ¬ ball (rc_pos c) tiny (rc_p0 c) → ∃ o, raycast_sphere r c = Ok o.
Proof.
  intros Hne Hr Hc. pose proof tiny_pos. unfold raycast_sphere.
  destruct (ray_sphere_ok _ _ (rc_pos c) r Hne ltac:(lra)) as [[-> H0]|(t & -> & H0 & Hs)]; simpl; [eauto|].
  unfold normalize3, assert_. destruct rltb eqn:E; simpl; [eauto|]. apply rltb_false in E. exfalso.
  rewrite lerp_along in E.
  destruct (Rle_or_lt (GeoModel.dist (rc_p0 c) (rc_pos c)) r) as [Hb|Hb].
  - destruct H0 as (Ht0 & _ & Hmin). assert (t = 0) as ->.
    { specialize (Hmin 0 ltac:(lra)). rewrite along_0 in Hmin. specialize (Hmin Hb). lra. }
    rewrite along_0 in E. apply Hc. unfold ball, GeoModel.dist. done.
  - specialize (Hs ltac:(unfold ball; lra)). unfold len in E. rewrite Hs, sqrt_square in E by lra. lra.
Qed.

(** ** Planes *)
Lemma plane_ok n k c :
  unit3 n →
  (eps <= Rabs (dot3 (sub3 (rc_p1 c) (rc_p0 c)) n) →
   ∃ t, raycast_plane n k c = Some (Hit t n FNone) ∧
     ∀ t', plane_set n k (along (rc_p0 c) (rc_p1 c) t') ↔ t' = t) ∧
  (dot3 (sub3 (rc_p1 c) (rc_p0 c)) n = 0 → eps <= Rabs (k - dot3 (rc_p0 c) n) →
   raycast_plane n k c = None ∧ ¬ meets_line (plane_set n k) (rc_p0 c) (rc_p1 c)) ∧
  (dot3 (sub3 (rc_p1 c) (rc_p0 c)) n = 0 → plane_set n k (rc_p0 c) →
   raycast_plane n k c = Some (Hit 0 n FNone) ∧ ∀ t, plane_set n k (along (rc_p0 c) (rc_p1 c) t)).
Proof.
  intros Hn. pose proof eps_pos as Heps.
  assert (Ee : dot3 (sub3 (scl k n) (rc_p0 c)) n = k - dot3 (rc_p0 c) n).
  { transitivity (k * dot3 n n - dot3 (rc_p0 c) n); [|rewrite Hn; ring].
    destruct n, (rc_p0 c). unfold dot3, sub3, scl; simpl. ring. }
  assert (El : ∀ t, dot3 (along (rc_p0 c) (rc_p1 c) t) n = dot3 (rc_p0 c) n + t * dot3 (sub3 (rc_p1 c) (rc_p0 c)) n).
  { intros t. destruct n, (rc_p0 c), (rc_p1 c). unfold along, dot3, add3, sub3, scl; simpl. ring. }
  unfold raycast_plane, plane_set. rewrite Ee.
  set (d := dot3 (sub3 (rc_p1 c) (rc_p0 c)) n) in *. set (m := dot3 (rc_p0 c) n) in *.
  split; [|split].
  - intros Hd. assert (rltb (Rabs d) eps = false) as -> by (unfold rltb; destruct Rlt_dec; [lra|done]).
    assert (d ≠ 0). { intros E. rewrite E, Rabs_R0 in Hd. lra. }
    eexists. split; [done|]. intros t'. rewrite El. split.
    + intros H1. apply Rmult_eq_reg_r with d; [|done]. replace ((k - m) / d * d) with (k - m) by (field; done). lra.
    + intros ->. field. done.
  - intros -> He. rewrite Rabs_R0. assert (rltb 0 eps = true) as -> by (apply rltb_true; lra).
    assert (rltb (Rabs (k - m)) eps = false) as -> by (unfold rltb; destruct Rlt_dec; [lra|done]).
    split; [done|]. intros (t & Ht). rewrite El in Ht. assert (k - m = 0) as E by lra. rewrite E, Rabs_R0 in He. lra.
  - intros -> He. rewrite Rabs_R0. assert (rltb 0 eps = true) as -> by (apply rltb_true; lra).
    replace (k - m) with 0 by lra. rewrite Rabs_R0. assert (rltb 0 eps = true) as -> by (apply rltb_true; lra).
    split; [done|]. intros t. rewrite El. lra.
Qed.
