(** C60-C62: closest points and intersections. *)
From Verif Require Import Outcome BoxModel GeoModel RotSpec RotProofs NearModel NearSpec NearProofs NearProofs2 NearProofs3.
From Coq Require Import Reals Lra Psatz.
Local Open Scope R_scope.

(** * C60: closest points of points, lines, segments and discs *)

Theorem C60_segment q0 q1 p d t q :
  closest_point_segment q0 q1 p = Ok (d, t, q) →
  0 <= t <= 1 ∧ q = add3 q0 (scl t (sub3 q1 q0)) ∧ d = lsq (sub3 p q) ∧ nearest (on_segment q0 q1) p q.
Proof. exact (segment_ok q0 q1 p d t q). Qed.

Theorem C60_line q0 dir p d t q :
  closest_point_line q0 dir p = Ok (d, t, q) →
  q = add3 q0 (scl t dir) ∧ d = lsq (sub3 p q) ∧ nearest (on_line q0 dir) p q ∧ dot3 (sub3 p q) dir = 0.
Proof. exact (line_ok q0 dir p d t q). Qed.

Theorem C60_line_distance q0 dir p d :
  distance_sqr_line q0 dir p = Ok d → ∃ q, nearest (on_line q0 dir) p q ∧ d = lsq (sub3 p q).
Proof.
  intros H. destruct (distance_line_ok _ _ _ _ H) as (t & q & E). destruct (line_ok _ _ _ _ _ _ E) as (_ & D & N & _).
  eauto.
Qed.

(** The two lines are declared parallel exactly if the squared length of the
    cross product of their directions is within the tolerance. *)
Theorem C60_lines p1 q1 p2 q2 :
  match closest_point_line_line p1 q1 p2 q2 with
  | Some (s, t) =>
      nearest_pair (on_line p1 (sub3 q1 p1)) (on_line p2 (sub3 q2 p2))
        (add3 p1 (scl s (sub3 q1 p1))) (add3 p2 (scl t (sub3 q2 p2)))
  | None => lsq (cross3 (sub3 q1 p1) (sub3 q2 p2)) <= eps
  end.
Proof.
  destruct (closest_point_line_line p1 q1 p2 q2) as [[s t]|] eqn:E.
  - apply line_line_ok, E.
  - apply line_line_none, E.
Qed.

(** The first pair of points of two segments is a nearest pair, whether or not
    the caller asks for a second pair. *)
Theorem C60_segments two p1 q1 p2 q2 :
  seg_clear p1 q1 p2 q2 →
  let r := closest_point_segment_segment two p1 q1 p2 q2 in
  0 <= ss_s r <= 1 ∧ 0 <= ss_t r <= 1 ∧
  ss_c1 r = add3 p1 (scl (ss_s r) (sub3 q1 p1)) ∧ ss_c2 r = add3 p2 (scl (ss_t r) (sub3 q2 p2)) ∧
  ss_dist r = lsq (sub3 (ss_c1 r) (ss_c2 r)) ∧
  nearest_pair (on_segment p1 q1) (on_segment p2 q2) (ss_c1 r) (ss_c2 r).
Proof. exact (seg_clear_ok two p1 q1 p2 q2). Qed.
Example C60_segments_case :
  seg_clear (V3 0 0 0) (V3 1 0 0) (V3 0 1 0) (V3 0 1 2) ∧
  seg_clear (V3 0 0 0) (V3 1 0 0) (V3 0 1 0) (V3 2 1 0) ∧
  seg_clear (V3 0 0 0) (V3 0 0 0) (V3 0 1 0) (V3 2 1 0).
Proof.
  pose proof eps_small. unfold seg_clear, lsq, cross3, dot3, sub3; simpl. split_and!.
  all: first [right; lra | left; lra | left; done].
Qed.

(** The second pair of two parallel segments: both points are on their
    segments; it is a nearest pair unless the segments run the same way and the
    second one starts past the middle of the first one and ends past its end. *)
Theorem C60_second_pair p1 q1 p2 q2 sp tp c1 c2 :
  eps < lsq (sub3 q1 p1) → eps < lsq (sub3 q2 p2) → lsq (cross3 (sub3 q1 p1) (sub3 q2 p2)) = 0 →
  ss_second (closest_point_segment_segment true p1 q1 p2 q2) = Some (sp, tp, c1, c2) →
  on_segment p1 q1 c1 ∧ on_segment p2 q2 c2 ∧
  c1 = add3 p1 (scl sp (sub3 q1 p1)) ∧ c2 = add3 p2 (scl tp (sub3 q2 p2)) ∧
  (nearest_pair (on_segment p1 q1) (on_segment p2 q2) c1 c2 ↔ ¬ late_overlap p1 q1 p2 q2).
Proof. exact (second_ok p1 q1 p2 q2 sp tp c1 c2). Qed.

(** Two rods side by side: one from x = 0 to x = 4, the other, one above it,
    from x = 3 to x = 6.  They overlap between 3 and 4.  The second pair is
    (4, 0, 0) and (6, 1, 0). *)
Lemma rods_second :
  ss_second (closest_point_segment_segment true (V3 0 0 0) (V3 4 0 0) (V3 3 1 0) (V3 6 1 0))
  = Some (1, 1, V3 4 0 0, V3 6 1 0).
Proof.
  pose proof eps_small as Hs. pose proof eps_pos as Hp.
  unfold closest_point_segment_segment. unfold dot3, sub3; cbn [vx vy vz].
  set (a := (4 - 0) * (4 - 0) + (0 - 0) * (0 - 0) + (0 - 0) * (0 - 0)).
  set (e := (6 - 3) * (6 - 3) + (1 - 1) * (1 - 1) + (0 - 0) * (0 - 0)).
  set (b := (4 - 0) * (6 - 3) + (0 - 0) * (1 - 1) + (0 - 0) * (0 - 0)).
  set (c := (4 - 0) * (0 - 3) + (0 - 0) * (0 - 1) + (0 - 0) * (0 - 0)).
  set (f := (6 - 3) * (0 - 3) + (1 - 1) * (0 - 1) + (0 - 0) * (0 - 0)).
  set (f1 := (4 - 0) * (0 - 6) + (0 - 0) * (0 - 1) + (0 - 0) * (0 - 0)).
  set (f2 := (6 - 3) * (3 - 4) + (1 - 1) * (1 - 0) + (0 - 0) * (0 - 0)).
  assert (Ea : a = 16) by (unfold a; ring). assert (Ee : e = 9) by (unfold e; ring). assert (Eb : b = 12) by (unfold b; ring).
  assert (Ec : c = -12) by (unfold c; ring). assert (Ef : f = -9) by (unfold f; ring).
  assert (Ef1 : f1 = -24) by (unfold f1; ring). assert (Ef2 : f2 = -3) by (unfold f2; ring).
  clearbody a b c e f f1 f2. subst.
  assert (rleb 16 eps = false) as -> by (unfold rleb; destruct Rle_dec; [lra|done]).
  assert (rleb 9 eps = false) as -> by (unfold rleb; destruct Rle_dec; [lra|done]).
  cbn [andb]. destruct (Rlt_dec eps (16 * 9 - 12 * 12)); [lra|].
  assert (clamp_unit (Rmin (- -12 * (1 / 16)) (- -24 * (1 / 16))) = 3 / 4) as ->.
  { rewrite Rmin_left by lra. unfold clamp_unit. repeat destruct Rlt_dec; lra. }
  assert (clamp_unit (Rmax (- -12 * (1 / 16)) (- -24 * (1 / 16))) = 1) as ->.
  { rewrite Rmax_right by lra. unfold clamp_unit. repeat destruct Rlt_dec; lra. }
  assert (clamp_unit (Rmax (- -9 * (1 / 9)) (- -3 * (1 / 9))) = 1) as ->.
  { rewrite Rmax_left by lra. unfold clamp_unit. repeat destruct Rlt_dec; lra. }
  assert (rltb eps (Rabs (3 / 4 - 1)) = true) as ->.
  { apply rltb_true. rewrite Rabs_left by lra. lra. }
  assert (E1 : add3 (V3 0 0 0) (scl 1 (V3 (4 - 0) (0 - 0) (0 - 0))) = V3 4 0 0) by (unfold add3, scl; simpl; f_equal; ring).
  assert (E2 : add3 (V3 3 1 0) (scl 1 (V3 (6 - 3) (1 - 1) (0 - 0))) = V3 6 1 0) by (unfold add3, scl; simpl; f_equal; ring).
  rewrite E1, E2. destruct (rltb _ 0); [|destruct (rltb 9 _)]; done.
Qed.
Theorem C60_second_pair_refuted :
  ∃ p1 q1 p2 q2 sp tp c1 c2,
    seg_clear p1 q1 p2 q2 ∧
    ss_second (closest_point_segment_segment true p1 q1 p2 q2) = Some (sp, tp, c1, c2) ∧
    ¬ nearest_pair (on_segment p1 q1) (on_segment p2 q2) c1 c2.
Proof.
  do 8 eexists. split; [|split; [exact rods_second|]].
  - pose proof eps_small. unfold seg_clear, lsq, cross3, dot3, sub3; simpl. split_and!; [right; lra|right; lra|left; lra].
  - intros H. pose proof eps_small.
    refine (proj1 (proj2 (proj2 (proj2 (proj2 (second_ok _ _ _ _ _ _ _ _ _ _ _ rods_second))))) H _);
      unfold late_overlap, lsq, cross3, dot3, sub3; simpl; try (split_and!; lra); lra.
Qed.

(** The distance and the closest point of a disc *)
Theorem C60_disc dpos dorn radius ax p d q :
  qlsq dorn = 1 → 0 < radius →
  closest_point_disc dpos dorn radius ax p = Ok (d, q) →
  d = lsq (sub3 p q) ∧ nearest (on_disc dpos (axis_vec_q ax dorn) radius) p q.
Proof. exact (disc_ok dpos dorn radius ax p d q). Qed.
Theorem C60_disc_defined dpos dorn radius ax p :
  0 < radius → ∃ d q, closest_point_disc dpos dorn radius ax p = Ok (d, q).
Proof.
  intros Hr. unfold closest_point_disc. destruct rltb eqn:E; [eauto|]. apply rltb_false in E.
  destruct Req_EM_T as [H|]; [|eauto]. apply sqrt_eq_0 in H; [|apply lsq_nonneg]. nra.
Qed.

(** * C61: closest points of boxes *)
Theorem C61_outside h p :
  0 <= vx h → 0 <= vy h → 0 <= vz h → nearest (in_box h) p (closest_point_box_outside h p).
Proof. exact (outside_ok h p). Qed.

(** From inside: the point is the nearest one of the surface and the normal is
    the outward normal of that face; the returned number is the distance to the
    face of the negative z axis, whatever the nearest face is. *)
Theorem C61_inside h p d c n :
  closest_point_box_inside h p = Ok (d, c, n) →
  in_box h p ∧ nearest (on_box h) p c ∧ unit3 n ∧ c = add3 p (scl (GeoModel.dist p c) n) ∧
  d = vz h + vz p ∧ (∀ x, in_box h x → dot3 (sub3 x c) n <= 0).
Proof. exact (inside_ok h p d c n). Qed.
Theorem C61_inside_defined h p : in_box h p ↔ ∃ r, closest_point_box_inside h p = Ok r.
Proof.
  split.
  - intros ((? & ?) & (? & ?) & (? & ?)). unfold closest_point_box_inside, assert_.
    unfold rleb. repeat (destruct Rle_dec; [|lra]). simpl. eauto.
  - intros ([[d c] n] & H). apply (inside_ok _ _ _ _ _ H).
Qed.
(** So the returned number is not the distance to the returned point. *)
Theorem C61_inside_refuted :
  ∃ h p d c n, closest_point_box_inside h p = Ok (d, c, n) ∧ d ≠ GeoModel.dist p c.
Proof.
  destruct (proj1 (C61_inside_defined (V3 1 1 5) (V3 0 0 0))) as ([[d c] n] & H).
  { unfold in_box; simpl. lra. }
  exists (V3 1 1 5), (V3 0 0 0), d, c, n. split; [done|].
  destruct (inside_ok _ _ _ _ _ H) as (_ & (_ & N) & _ & _ & Hd & _). simpl in Hd. intros E.
  assert (Hx : on_box (V3 1 1 5) (V3 1 0 0)).
  { unfold on_box, in_box; simpl. rewrite Rabs_R1. split_and!; try lra; left; lra. }
  specialize (N _ Hx). rewrite <- E, Hd in N.
  assert (GeoModel.dist (V3 0 0 0) (V3 1 0 0) = 1).
  { unfold GeoModel.dist, len. replace (lsq _) with (1 * 1) by (unfold lsq, dot3, sub3; simpl; ring). apply sqrt_square. lra. }
  lra.
Qed.

(** * C62: circles in the plane *)

(** If no point or two points are reported, these are exactly the points that
    the line and the circle share. *)
Theorem C62_line p0 p1 r l :
  p0 ≠ p1 → intersect_line_circle p0 p1 r = Ok l → length l ≠ 1%nat →
  ∀ t, on_circle (V2 0 0) r (line2 p0 p1 t) ↔ t ∈ l.
Proof. exact (line_circle_ok p0 p1 r l). Qed.
Theorem C62_line_defined p0 p1 r : p0 ≠ p1 → ∃ l, intersect_line_circle p0 p1 r = Ok l ∧ (length l <= 2)%nat.
Proof. exact (line_circle_defined p0 p1 r). Qed.
(** A tangent: the reported parameter is not the point of contact (here 128
    instead of 1/2). *)
Theorem C62_tangent_refuted :
  ∃ p0 p1 r t, p0 ≠ p1 ∧ intersect_line_circle p0 p1 r = Ok [t] ∧
    ¬ on_circle (V2 0 0) r (line2 p0 p1 t) ∧ on_circle (V2 0 0) r (line2 p0 p1 (1 / 2)).
Proof.
  exists (V2 (-2) 1), (V2 2 1), 1, 128. split; [intros [=]; lra|]. split; [|split].
  - unfold intersect_line_circle, lsq2, dot2, sub2; cbn [ux uy]. pose proof eps_pos.
    set (delta := _ - _).
    assert (delta = 0) as -> by (unfold delta; ring).
    assert (rltb 0 0 = false) as -> by (unfold rltb; destruct Rlt_dec; [lra|done]).
    assert (rltb eps 0 = false) as -> by (unfold rltb; destruct Rlt_dec; [lra|done]).
    do 2 f_equal. ring.
  - unfold on_circle, line2; simpl. lra.
  - unfold on_circle, line2; simpl. lra.
Qed.

(** Two circles that are not nearly concentric, or of which the first one is
    larger: exactly the points they share are reported. *)
Theorem C62_circles A ra B rb n x y :
  0 <= ra → 0 <= rb → eps <= lsq2 (sub2 B A) ∨ eps <= ra - rb →
  intersect_circle_circle A ra B rb = Ok (n, x, y) →
  if decide (n = 0%nat) then ∀ z, ¬ (on_circle A ra z ∧ on_circle B rb z)
  else ∀ z, (on_circle A ra z ∧ on_circle B rb z) ↔ z = x ∨ z = y.
Proof. exact (circle_circle_ok A ra B rb n x y). Qed.
Theorem C62_circles_defined A ra B rb :
  eps <= lsq2 (sub2 B A) ∨ eps <= ra - rb → ∃ r, intersect_circle_circle A ra B rb = Ok r.
Proof. exact (circle_circle_defined A ra B rb). Qed.
Example C62_circles_case : eps <= lsq2 (sub2 (V2 1 0) (V2 0 0)) ∨ eps <= 1 - 1.
Proof. left. pose proof eps_small. unfold lsq2, dot2, sub2; simpl. lra. Qed.
(** A small circle in the middle of a larger one: two points are reported,
    although the circles share none. *)
Theorem C62_concentric_refuted :
  ∃ A ra B rb x y, 0 < ra ∧ 0 < rb ∧ intersect_circle_circle A ra B rb = Ok (2%nat, x, y) ∧
    ∀ z, ¬ (on_circle A ra z ∧ on_circle B rb z).
Proof.
  exists (V2 0 0), 1, (V2 0 0), 2. do 2 eexists. split; [lra|]. split; [lra|]. split.
  - unfold intersect_circle_circle, lsq2, dot2, sub2; cbn [ux uy]. pose proof eps_pos. pose proof eps_small.
    assert (rltb ((0 - 0) * (0 - 0) + (0 - 0) * (0 - 0)) eps = true) as -> by (apply rltb_true; lra).
    assert (rltb (1 - 2) eps = true) as -> by (apply rltb_true; lra). done.
  - intros z (H1 & H2). unfold on_circle in *; simpl in *. lra.
Qed.

Print Assumptions C60_segment.
Print Assumptions C60_line.
Print Assumptions C60_line_distance.
Print Assumptions C60_lines.
Print Assumptions C60_segments.
Print Assumptions C60_second_pair.
Print Assumptions C60_second_pair_refuted.
Print Assumptions C60_disc.
Print Assumptions C60_disc_defined.
Print Assumptions C61_outside.
Print Assumptions C61_inside.
Print Assumptions C61_inside_defined.
Print Assumptions C61_inside_refuted.
Print Assumptions C62_line.
Print Assumptions C62_line_defined.
Print Assumptions C62_tangent_refuted.
Print Assumptions C62_circles.
Print Assumptions C62_circles_defined.
Print Assumptions C62_concentric_refuted.
