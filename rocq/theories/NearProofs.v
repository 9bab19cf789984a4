(** Proofs about NearModel.v. *)
From Verif Require Import Outcome BoxModel GeoModel RotSpec RotProofs NearModel NearSpec.
From Coq Require Import Reals Lra Psatz.
Local Open Scope R_scope.

Lemma dist_le p q x y : lsq (sub3 p q) <= lsq (sub3 x y) → GeoModel.dist p q <= GeoModel.dist x y.
Proof. intros H. unfold GeoModel.dist, len. apply sqrt_le_1; auto using lsq_nonneg. Qed.
Lemma dist_le_r p q r : 0 <= r → lsq (sub3 p q) <= r * r ↔ GeoModel.dist p q <= r.
Proof.
  intros Hr. unfold GeoModel.dist. split; intros H.
  - unfold len. rewrite <- (sqrt_square r) by lra. apply sqrt_le_1; [apply lsq_nonneg|nra|done].
  - rewrite <- len_sq. pose proof (len_nonneg (sub3 p q)). nra.
Qed.

Lemma clamp_spec x : 0 <= clamp_unit x <= 1 ∧ (∀ y, 0 <= y <= 1 → (clamp_unit x - x) * (y - clamp_unit x) >= 0).
Proof. unfold clamp_unit. repeat destruct Rlt_dec; split; try lra; intros y Hy; nra. Qed.
Lemma clamp_in x : 0 <= x <= 1 → clamp_unit x = x.
Proof. unfold clamp_unit. repeat destruct Rlt_dec; lra. Qed.

(** the squared distance of a point of a line and another point *)
Lemma line_expand (a d p : v3) s t :
  lsq (sub3 p (add3 a (scl s d))) =
  lsq (sub3 p (add3 a (scl t d))) + 2 * (t * dot3 d d - dot3 (sub3 p a) d) * (s - t) + dot3 d d * (s - t) * (s - t).
Proof. destruct a, d, p. unfold lsq, dot3, sub3, add3, scl; simpl. ring. Qed.

Lemma segment_ok q0 q1 p d t q :
  closest_point_segment q0 q1 p = Ok (d, t, q) →
  0 <= t <= 1 ∧ q = add3 q0 (scl t (sub3 q1 q0)) ∧ d = lsq (sub3 p q) ∧ nearest (on_segment q0 q1) p q.
Proof.
  unfold closest_point_segment, assert_. destruct rltb eqn:E; [|discriminate]. simpl.
  apply rltb_true in E. pose proof eps_pos. intros [= <- <- <-].
  set (a := dot3 (sub3 p q0) (sub3 q1 q0)) in *. set (b := dot3 (sub3 q1 q0) (sub3 q1 q0)) in *.
  destruct (clamp_spec (a / b)) as [H0 H1]. set (t := clamp_unit (a / b)) in *.
  split; [done|]. split; [done|]. split; [done|]. split; [exists t; done|].
  intros x (s & Hs & ->). apply dist_le. rewrite (line_expand _ _ _ s t). fold a b.
  specialize (H1 s Hs).
  assert (t * b - a = b * (t - a / b)) as -> by (field; lra).
  assert (0 <= b * (t - a / b) * (s - t)).
  { replace (b * (t - a / b) * (s - t)) with (b * ((t - a / b) * (s - t))) by ring. apply Rmult_le_pos; lra. }
  assert (0 <= b * (s - t) * (s - t)) by (rewrite Rmult_assoc; apply Rmult_le_pos; [lra|apply Rle_0_sqr]). lra.
Qed.

Lemma line_ok q0 dir p d t q :
  closest_point_line q0 dir p = Ok (d, t, q) →
  q = add3 q0 (scl t dir) ∧ d = lsq (sub3 p q) ∧ nearest (on_line q0 dir) p q ∧ dot3 (sub3 p q) dir = 0.
Proof.
  unfold closest_point_line, assert_. destruct rltb eqn:E; [|discriminate]. simpl.
  apply rltb_true in E. pose proof eps_pos. intros [= <- <- <-].
  set (a := dot3 (sub3 p q0) dir) in *. set (b := dot3 dir dir) in *.
  split; [done|]. split; [done|]. split.
  - split; [eexists; done|]. intros x (s & ->). apply dist_le. rewrite (line_expand _ _ _ s (a / b)). fold a b.
    replace (a / b * b - a) with 0 by (field; lra).
    assert (0 <= b * (s - a / b) * (s - a / b)) by (rewrite Rmult_assoc; apply Rmult_le_pos; [lra|apply Rle_0_sqr]). lra.
  - transitivity (a - a / b * b); [|field; lra]. unfold a, b. destruct p, q0, dir.
    unfold dot3, sub3, add3, scl; simpl. ring.
Qed.
Lemma distance_line_ok q0 dir p d :
  distance_sqr_line q0 dir p = Ok d → ∃ t q, closest_point_line q0 dir p = Ok (d, t, q).
Proof.
  unfold distance_sqr_line, closest_point_line, assert_. destruct rltb; [|discriminate]. simpl.
  intros [= <-]. eauto.
Qed.

(** ** Pairs of points of two lines *)
Lemma pair_expand (p1 d1 p2 d2 : v3) s t s' t' :
  lsq (sub3 (add3 p1 (scl s' d1)) (add3 p2 (scl t' d2))) =
  lsq (sub3 (add3 p1 (scl s d1)) (add3 p2 (scl t d2)))
  + 2 * (s * dot3 d1 d1 - t * dot3 d1 d2 + dot3 d1 (sub3 p1 p2)) * (s' - s)
  + 2 * (t * dot3 d2 d2 - s * dot3 d1 d2 - dot3 d2 (sub3 p1 p2)) * (t' - t)
  + lsq (sub3 (scl (s' - s) d1) (scl (t' - t) d2)).
Proof. destruct p1, d1, p2, d2. unfold lsq, dot3, sub3, add3, scl; simpl. ring. Qed.
Lemma pair_min (p1 d1 p2 d2 : v3) s t s' t' :
  0 <= (s * dot3 d1 d1 - t * dot3 d1 d2 + dot3 d1 (sub3 p1 p2)) * (s' - s) →
  0 <= (t * dot3 d2 d2 - s * dot3 d1 d2 - dot3 d2 (sub3 p1 p2)) * (t' - t) →
  lsq (sub3 (add3 p1 (scl s d1)) (add3 p2 (scl t d2))) <= lsq (sub3 (add3 p1 (scl s' d1)) (add3 p2 (scl t' d2))).
Proof.
  intros H1 H2. rewrite (pair_expand p1 d1 p2 d2 s t s' t').
  pose proof (lsq_nonneg (sub3 (scl (s' - s) d1) (scl (t' - t) d2))). lra.
Qed.

Lemma line_line_ok p1 q1 p2 q2 s t :
  closest_point_line_line p1 q1 p2 q2 = Some (s, t) →
  nearest_pair (on_line p1 (sub3 q1 p1)) (on_line p2 (sub3 q2 p2))
    (add3 p1 (scl s (sub3 q1 p1))) (add3 p2 (scl t (sub3 q2 p2))) ∧
  dot3 (sub3 q1 p1) (sub3 (add3 p1 (scl s (sub3 q1 p1))) (add3 p2 (scl t (sub3 q2 p2)))) = 0 ∧
  dot3 (sub3 q2 p2) (sub3 (add3 p1 (scl s (sub3 q1 p1))) (add3 p2 (scl t (sub3 q2 p2)))) = 0.
Proof.
  unfold closest_point_line_line. destruct Rlt_dec as [E|]; [|discriminate]. pose proof eps_pos.
  set (d1 := sub3 q1 p1) in *. set (d2 := sub3 q2 p2) in *. set (r := sub3 p1 p2) in *.
  set (a := dot3 d1 d1) in *. set (b := dot3 d1 d2) in *. set (e := dot3 d2 d2) in *.
  set (c := dot3 d1 r) in *. set (f := dot3 d2 r) in *. intros [= <- <-].
  set (s := (b * f - c * e) * (1 / (a * e - b * b))). set (t := (a * f - b * c) * (1 / (a * e - b * b))).
  assert (G1 : s * a - t * b + c = 0) by (unfold s, t; field; lra).
  assert (G2 : t * e - s * b - f = 0) by (unfold s, t; field; lra).
  split; [split; [|split]|].
  - eexists. done.
  - eexists. done.
  - intros x' y' (s' & ->) (t' & ->). apply dist_le. apply pair_min; fold r a b c e f; nra.
  - split.
    + transitivity (s * a - t * b + c); [|done]. unfold a, b, c, r. generalize s t. intros.
      destruct p1, p2, d1, d2. unfold dot3, sub3, add3, scl; simpl. ring.
    + transitivity (-(t * e - s * b - f)); [|lra]. unfold e, b, f, r. generalize s t. intros.
      destruct p1, p2, d1, d2. unfold dot3, sub3, add3, scl; simpl. ring.
Qed.
Lemma line_line_none p1 q1 p2 q2 :
  closest_point_line_line p1 q1 p2 q2 = None ↔
  lsq (cross3 (sub3 q1 p1) (sub3 q2 p2)) <= eps.
Proof.
  assert (L : ∀ u v : v3, lsq (cross3 u v) = dot3 u u * dot3 v v - dot3 u v * dot3 u v).
  { intros [] []. unfold lsq, cross3, dot3; simpl. ring. }
  rewrite L. unfold closest_point_line_line. destruct Rlt_dec; split; intros; try done; lra.
Qed.

(** ** Segments *)
Lemma lagrange (u v : v3) : lsq (cross3 u v) = dot3 u u * dot3 v v - dot3 u v * dot3 u v.
Proof. destruct u, v. unfold lsq, cross3, dot3; simpl. ring. Qed.
Lemma dot_nonneg (u : v3) : 0 <= dot3 u u.
Proof. apply (lsq_nonneg u). Qed.

(** parallel directions *)
Lemma parallel_dot (u v r : v3) :
  dot3 u u * dot3 v v - dot3 u v * dot3 u v = 0 → dot3 u r * dot3 v v = dot3 u v * dot3 v r.
Proof.
  rewrite <- lagrange. intros H. apply lsq_zero in H.
  assert (∀ i, i = cross3 (cross3 u v) v → dot3 i r = 0) as Hi.
  { intros i ->. rewrite H. destruct v, r. unfold dot3, cross3, vec0; simpl. ring. }
  specialize (Hi _ eq_refl). destruct u, v, r. unfold dot3, cross3 in *; simpl in *. lra.
Qed.

(** a minimum along one direction, given as the sign of the slope *)
Definition slope_ok (g s : R) : Prop := ∀ s', 0 <= s' <= 1 → 0 <= g * (s' - s).
Lemma slope_clamp a c : 0 < a → slope_ok (clamp_unit (- c / a) * a + c) (clamp_unit (- c / a)).
Proof.
  intros Ha s' Hs. destruct (clamp_spec (- c / a)) as [_ H]. specialize (H s' Hs).
  set (k := clamp_unit (- c / a)) in *.
  replace ((k * a + c) * (s' - k)) with (a * ((k - - c / a) * (s' - k))) by (field; lra).
  apply Rmult_le_pos; lra.
Qed.
Lemma slope_zero s : slope_ok 0 s.
Proof. intros s' _. lra. Qed.
Lemma slope_lo g : 0 <= g → slope_ok g 0.
Proof. intros H s' Hs. apply Rmult_le_pos; lra. Qed.
Lemma slope_hi g : g <= 0 → slope_ok g 1.
Proof. intros H s' Hs. nra. Qed.
Lemma slope_right g s : slope_ok g s → s < 1 → 0 <= g.
Proof. intros H Hs. specialize (H 1 ltac:(lra)). nra. Qed.
Lemma slope_left g s : slope_ok g s → 0 < s → g <= 0.
Proof. intros H Hs. specialize (H 0 ltac:(lra)). nra. Qed.

(** The clamping argument.  [s0] minimizes the distance to the line of the
    second segment; the other parameter is [(b s0 + f) / e].  If that is below
    zero, it is still not positive at the [s1] that is best for the end point. *)
Lemma clamp_stays a b c e f s0 s1 :
  0 < e → 0 <= a * e - b * b → 0 <= s0 <= 1 → 0 <= s1 <= 1 →
  slope_ok ((a * e - b * b) * s0 + c * e - b * f) s0 → slope_ok (s1 * a + c) s1 →
  b * s0 + f < 0 → b * s1 + f <= 0.
Proof.
  intros He Hd H0 H1 S0 S1 Hn. apply Rnot_lt_le. intros Hp.
  destruct (Rtotal_order s1 s0) as [Hlt|[->|Hgt]]; [| lra |].
  - assert (b < 0) by nra. pose proof (slope_left _ _ S0 ltac:(lra)) as G0.
    pose proof (slope_right _ _ S1 ltac:(lra)) as G1.
    assert ((s1 * a + c) * e = (a * e - b * b) * s1 + c * e - b * f + b * (b * s1 + f)) as E by ring.
    assert (b * (b * s1 + f) < 0) by nra.
    assert ((a * e - b * b) * s1 <= (a * e - b * b) * s0) by nra.
    assert (0 <= (s1 * a + c) * e) by (apply Rmult_le_pos; lra). lra.
  - assert (0 < b) by nra. pose proof (slope_right _ _ S0 ltac:(lra)) as G0.
    pose proof (slope_left _ _ S1 ltac:(lra)) as G1.
    assert ((s1 * a + c) * e = (a * e - b * b) * s1 + c * e - b * f + b * (b * s1 + f)) as E by ring.
    assert (0 < b * (b * s1 + f)) by nra.
    assert ((a * e - b * b) * s0 <= (a * e - b * b) * s1) by nra.
    assert ((s1 * a + c) * e <= 0) by nra. lra.
Qed.
(** the same at the other end, by reversing the second segment *)
Lemma clamp_stays' a b c e f s0 s1 :
  0 < e → 0 <= a * e - b * b → 0 <= s0 <= 1 → 0 <= s1 <= 1 →
  slope_ok ((a * e - b * b) * s0 + c * e - b * f) s0 → slope_ok (s1 * a - b + c) s1 →
  e < b * s0 + f → e <= b * s1 + f.
Proof.
  intros He Hd H0 H1 S0 S1 Hn.
  pose proof (clamp_stays a (- b) (c - b) e (e - f) s0 s1 He ltac:(lra) H0 H1) as H.
  assert (- b * s1 + (e - f) <= 0); [|lra]. apply H; [| |lra].
  - intros s' Hs. specialize (S0 s' Hs). eapply Rle_trans; [apply S0|]. apply Req_le. ring.
  - intros s' Hs. specialize (S1 s' Hs). eapply Rle_trans; [apply S1|]. apply Req_le. ring.
Qed.

(** the end of the general case *)
Definition ss_tail (a b c e f s0 : R) : R * R :=
  let tnom := b * s0 + f in
  if rltb tnom 0 then (clamp_unit (- c / a), 0)
  else if rltb e tnom then (clamp_unit ((b - c) / a), 1)
  else (s0, tnom / e).
Lemma tail_ok a b c e f s0 s t :
  0 < a → 0 < e → 0 <= a * e - b * b → 0 <= s0 <= 1 →
  slope_ok ((a * e - b * b) * s0 + c * e - b * f) s0 →
  ss_tail a b c e f s0 = (s, t) →
  0 <= s <= 1 ∧ 0 <= t <= 1 ∧ slope_ok (s * a - t * b + c) s ∧ slope_ok (t * e - s * b - f) t.
Proof.
  intros Ha He Hd H0 S0. unfold ss_tail. cbv zeta.
  destruct (rltb (b * s0 + f) 0) eqn:E1; [|destruct (rltb e (b * s0 + f)) eqn:E2].
  - apply rltb_true in E1. intros [= <- <-]. destruct (clamp_spec (- c / a)) as [B _].
    pose proof (slope_clamp a c Ha) as S1. set (s1 := clamp_unit (- c / a)) in *.
    split; [done|]. split; [lra|]. split.
    + intros s' Hs. specialize (S1 s' Hs). eapply Rle_trans; [apply S1|]. apply Req_le. ring.
    + apply slope_lo. pose proof (clamp_stays a b c e f s0 s1 He Hd H0 B S0 S1 E1). lra.
  - apply rltb_true in E2. intros [= <- <-].
    replace ((b - c) / a) with (- (c - b) / a) by (field; lra).
    destruct (clamp_spec (- (c - b) / a)) as [B _].
    pose proof (slope_clamp a (c - b) Ha) as S1. set (s1 := clamp_unit (- (c - b) / a)) in *.
    assert (S1' : slope_ok (s1 * a - b + c) s1).
    { intros s' Hs. specialize (S1 s' Hs). eapply Rle_trans; [apply S1|]. apply Req_le. ring. }
    split; [done|]. split; [lra|]. split.
    + intros s' Hs. specialize (S1' s' Hs). eapply Rle_trans; [apply S1'|]. apply Req_le. ring.
    + apply slope_hi. pose proof (clamp_stays' a b c e f s0 s1 He Hd H0 B S0 S1' E2). lra.
  - apply rltb_false in E1, E2. intros [= <- <-]. split; [done|]. split.
    { split; [apply Rmult_le_reg_r with e|apply Rmult_le_reg_r with e]; try lra;
      unfold Rdiv; rewrite Rmult_assoc, Rinv_l by lra; lra. }
    split.
    + intros s' Hs. specialize (S0 s' Hs).
      replace ((s0 * a - (b * s0 + f) / e * b + c) * (s' - s0))
        with (/ e * (((a * e - b * b) * s0 + c * e - b * f) * (s' - s0))) by (field; lra).
      apply Rmult_le_pos; [left; apply Rinv_0_lt_compat; lra|done].
    + replace ((b * s0 + f) / e * e - s0 * b - f) with 0 by (field; lra). apply slope_zero.
Qed.

(** Both segments are longer than the tolerance, and their directions are
    either exactly parallel or further from it than the tolerance. *)
Definition seg_regular (p1 q1 p2 q2 : v3) : Prop :=
  let n := lsq (cross3 (sub3 q1 p1) (sub3 q2 p2)) in
  eps < lsq (sub3 q1 p1) ∧ eps < lsq (sub3 q2 p2) ∧ (n = 0 ∨ eps < n).

Lemma seg_pair p1 q1 p2 q2 s t :
  0 <= s <= 1 → 0 <= t <= 1 →
  slope_ok (s * dot3 (sub3 q1 p1) (sub3 q1 p1) - t * dot3 (sub3 q1 p1) (sub3 q2 p2) + dot3 (sub3 q1 p1) (sub3 p1 p2)) s →
  slope_ok (t * dot3 (sub3 q2 p2) (sub3 q2 p2) - s * dot3 (sub3 q1 p1) (sub3 q2 p2) - dot3 (sub3 q2 p2) (sub3 p1 p2)) t →
  nearest_pair (on_segment p1 q1) (on_segment p2 q2)
    (add3 p1 (scl s (sub3 q1 p1))) (add3 p2 (scl t (sub3 q2 p2))).
Proof.
  intros Hs Ht S T. split; [eexists; eauto|]. split; [eexists; eauto|].
  intros x y (s' & Hs' & ->) (t' & Ht' & ->). apply dist_le. apply pair_min; auto.
Qed.

Lemma seg_seg_ok two p1 q1 p2 q2 :
  seg_regular p1 q1 p2 q2 →
  let r := closest_point_segment_segment two p1 q1 p2 q2 in
  0 <= ss_s r <= 1 ∧ 0 <= ss_t r <= 1 ∧
  ss_c1 r = add3 p1 (scl (ss_s r) (sub3 q1 p1)) ∧ ss_c2 r = add3 p2 (scl (ss_t r) (sub3 q2 p2)) ∧
  ss_dist r = lsq (sub3 (ss_c1 r) (ss_c2 r)) ∧
  nearest_pair (on_segment p1 q1) (on_segment p2 q2) (ss_c1 r) (ss_c2 r).
Proof.
  intros (Ha & He & Hp). rewrite lagrange in Hp. pose proof eps_pos as Heps.
  pose proof (parallel_dot (sub3 q1 p1) (sub3 q2 p2) (sub3 p1 p2)) as Hpar.
  pose proof (lsq_nonneg (cross3 (sub3 q1 p1) (sub3 q2 p2))) as Hdn. rewrite lagrange in Hdn.
  pose proof (seg_pair p1 q1 p2 q2) as Hpair. cbv zeta.
  unfold closest_point_segment_segment. unfold lsq in Ha, He.
  set (d1 := sub3 q1 p1) in *. set (d2 := sub3 q2 p2) in *. set (r := sub3 p1 p2) in *.
  set (a := dot3 d1 d1) in *. set (b := dot3 d1 d2) in *. set (e := dot3 d2 d2) in *.
  set (c := dot3 d1 r) in *. set (f := dot3 d2 r) in *.
  assert (Fa : rleb a eps = false).
  { unfold rleb. destruct Rle_dec; [lra|done]. }
  assert (Fe : rleb e eps = false).
  { unfold rleb. destruct Rle_dec; [lra|done]. }
  rewrite Fa, Fe. cbn [andb].
  set (pick := if Rlt_dec eps (a * e - b * b) then _ else _).
  assert (Hpick : 0 <= fst (fst pick) <= 1 ∧
    slope_ok ((a * e - b * b) * fst (fst pick) + c * e - b * f) (fst (fst pick))).
  { unfold pick. destruct Rlt_dec as [Hlt|Hge]; cbn [fst].
    - destruct (clamp_spec ((b * f - c * e) / (a * e - b * b))) as [B _]. split; [done|].
      pose proof (slope_clamp (a * e - b * b) (c * e - b * f) ltac:(lra)) as S.
      replace ((b * f - c * e) / (a * e - b * b)) with (- (c * e - b * f) / (a * e - b * b)) in * by (field; lra).
      intros s' Hs. specialize (S s' Hs). eapply Rle_trans; [apply S|]. apply Req_le. ring.
    - destruct Hp as [Hz|Hp]; [|lra]. specialize (Hpar Hz).
      assert (Hsl : ∀ s, slope_ok ((a * e - b * b) * s + c * e - b * f) s).
      { intros s s' _. fold c e b f in Hpar. rewrite Hz, Hpar. right. ring. }
      split; [|apply Hsl]. destruct two; [|cbn [fst]; lra].
      cbv zeta. destruct (rltb eps _); cbn [fst]; apply clamp_spec. }
  destruct pick as [[s0 num] second]. cbn [fst] in Hpick. destruct Hpick as [B0 S0].
  destruct (ss_tail a b c e f s0) as [s t] eqn:Et.
  destruct (tail_ok a b c e f s0 s t ltac:(lra) ltac:(lra) ltac:(lra) B0 S0 Et) as (Bs & Bt & Ss & St).
  specialize (Hpair s t Bs Bt Ss St).
  assert (Hres : (if rltb (b * s0 + f) 0
      then SS (lsq (sub3 (add3 p1 (scl (clamp_unit (- c / a)) d1)) (add3 p2 (scl 0 d2)))) (clamp_unit (- c / a)) 0
             (add3 p1 (scl (clamp_unit (- c / a)) d1)) (add3 p2 (scl 0 d2)) num second
      else if rltb e (b * s0 + f)
      then SS (lsq (sub3 (add3 p1 (scl (clamp_unit ((b - c) / a)) d1)) (add3 p2 (scl 1 d2)))) (clamp_unit ((b - c) / a)) 1
             (add3 p1 (scl (clamp_unit ((b - c) / a)) d1)) (add3 p2 (scl 1 d2)) num second
      else SS (lsq (sub3 (add3 p1 (scl s0 d1)) (add3 p2 (scl ((b * s0 + f) / e) d2)))) s0 ((b * s0 + f) / e)
             (add3 p1 (scl s0 d1)) (add3 p2 (scl ((b * s0 + f) / e) d2)) num second)
    = SS (lsq (sub3 (add3 p1 (scl s d1)) (add3 p2 (scl t d2)))) s t
             (add3 p1 (scl s d1)) (add3 p2 (scl t d2)) num second).
  { unfold ss_tail in Et. cbv zeta in Et.
    destruct (rltb (b * s0 + f) 0); [|destruct (rltb e (b * s0 + f))]; injection Et as <- <-; done. }
  rewrite Hres. cbn [ss_s ss_t ss_c1 ss_c2 ss_dist]. auto 10.
Qed.
