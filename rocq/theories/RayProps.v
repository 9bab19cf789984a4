(** C63-C68: raycasts. *)
From Verif Require Import Outcome BoxModel GeoModel RotSpec RotProofs NearModel NearSpec NearProofs RayModel RaySpec RayProofs RayProofs2 RayProofs3 RayProofs4.
From Coq Require Import Reals Lra Psatz.
Local Open Scope R_scope.

Lemma rotate_qid v : rotate qid v = v.
Proof. destruct v. unfold rotate, qid; simpl. unfold cross3, dot3, scl, add3, sub3; simpl. f_equal; ring. Qed.
Lemma unit_qid : qlsq qid = 1.
Proof. unfold qlsq, qid; simpl. ring. Qed.
Lemma to_world_qid x pos : to_world x pos qid = add3 pos x.
Proof. unfold to_world. rewrite rotate_qid. done. Qed.

(** * C63: spheres *)

(** A hit is the first point of the half-line that is in the ball, and a miss
    means that there is none.  If the ray starts outside, the normal points out
    of the ball at that point. *)
Theorem C63_sphere r c o :
  rc_p0 c ≠ rc_p1 c → 0 <= r → raycast_sphere r c = Ok o →
  match o with
  | None => ¬ meets_ray (ball (rc_pos c) r) (rc_p0 c) (rc_p1 c)
  | Some h =>
      ray_entry (ball (rc_pos c) r) (rc_p0 c) (rc_p1 c) (h_frac h) ∧ unit3 (h_normal h) ∧
      (¬ ball (rc_pos c) r (rc_p0 c) → outward (ball (rc_pos c) r) (along (rc_p0 c) (rc_p1 c) (h_frac h)) (h_normal h))
  end.
Proof. exact (sphere_ok r c o). Qed.

Theorem C63_sphere_defined r c :
  rc_p0 c ≠ rc_p1 c → tiny < r → ¬ ball (rc_pos c) tiny (rc_p0 c) → ∃ o, raycast_sphere r c = Ok o.
Proof. exact (sphere_defined r c). Qed.

Definition sphere_case : ray_ctx := RCtx (V3 10 0 0) qid (V3 0 0 0) (V3 1 0 0).
Lemma sphere_case_ball t : ball (V3 10 0 0) 1 (along (V3 0 0 0) (V3 1 0 0) t) ↔ 9 <= t <= 11.
Proof.
  rewrite ball_sq by lra. unfold along, lsq, dot3, sub3, add3, scl; simpl. split; [intros; split; nra|intros; nra].
Qed.
Lemma case_ne : V3 0 0 0 ≠ V3 1 0 0.
Proof. intros [=]. lra. Qed.

(** The hit need not be on the segment: a sphere that the segment does not
    reach is hit at a fraction beyond one. *)
Theorem C63_beyond_refuted :
  ∃ r c h, rc_p0 c ≠ rc_p1 c ∧ 0 < r ∧ raycast_sphere r c = Ok (Some h) ∧ 1 < h_frac h ∧
    ¬ meets_segment (ball (rc_pos c) r) (rc_p0 c) (rc_p1 c).
Proof.
  pose proof tiny_pos. assert (tiny < 1) by (unfold tiny; simpl; lra).
  exists 1, sphere_case.
  destruct (sphere_defined 1 sphere_case) as [o Ho]; [apply case_ne|lra| |].
  { unfold sphere_case; simpl. rewrite ball_sq by lra. unfold lsq, dot3, sub3; simpl. nra. }
  pose proof (sphere_ok 1 sphere_case o case_ne ltac:(lra) Ho) as S. simpl in S.
  assert (¬ meets_segment (ball (V3 10 0 0) 1) (V3 0 0 0) (V3 1 0 0)) as Hseg.
  { intros (t & Ht & Hb). apply sphere_case_ball in Hb. lra. }
  destruct o as [h|].
  - destruct S as ((_ & Hb & _) & _ & _). apply sphere_case_ball in Hb. exists h. simpl.
    split; [apply case_ne|]. split; [lra|]. split; [done|]. split; [lra|done].
  - exfalso. apply S. exists 10. split; [lra|]. apply sphere_case_ball. lra.
Qed.

(** * C64: boxes *)

(** A hit is the first point of the whole line that is in the box, and a miss
    means that there is none.  If that point is not behind the start, the
    normal points out of the box there and against the ray. *)
Theorem C64_box h c :
  qlsq (rc_orn c) = 1 → 0 < vx h <= 10 ^ 20 → 0 < vy h <= 10 ^ 20 → 0 < vz h <= 10 ^ 20 →
  GeoModel.dist (rc_p0 c) (rc_pos c) <= 10 ^ 20 → dirs_clear (rc_orn c) (rc_p0 c) (rc_p1 c) → rc_p0 c ≠ rc_p1 c →
  let S := placed (rc_pos c) (rc_orn c) (in_box h) in
  ∃ o, raycast_box h c = Ok o ∧
  match o with
  | None => ¬ meets_line S (rc_p0 c) (rc_p1 c)
  | Some r => line_entry S (rc_p0 c) (rc_p1 c) (h_frac r) ∧
      (0 <= h_frac r → outward S (along (rc_p0 c) (rc_p1 c) (h_frac r)) (h_normal r) ∧ dot3 (sub3 (rc_p1 c) (rc_p0 c)) (h_normal r) < 0)
  end.
Proof. exact (box_ok h c). Qed.

(** A box that contains the start is hit behind it or at it. *)
Theorem C64_inside h c r :
  qlsq (rc_orn c) = 1 → 0 < vx h <= 10 ^ 20 → 0 < vy h <= 10 ^ 20 → 0 < vz h <= 10 ^ 20 →
  GeoModel.dist (rc_p0 c) (rc_pos c) <= 10 ^ 20 → dirs_clear (rc_orn c) (rc_p0 c) (rc_p1 c) → rc_p0 c ≠ rc_p1 c →
  placed (rc_pos c) (rc_orn c) (in_box h) (rc_p0 c) → raycast_box h c = Ok (Some r) → h_frac r <= 0.
Proof.
  intros Hq H1 H2 H3 Hd Hc Hne Hin Hr. destruct (box_ok h c Hq H1 H2 H3 Hd Hc Hne) as (o & Ho & Hm).
  rewrite Hr in Ho. injection Ho as <-. destruct Hm as [[_ Hm] _]. apply Hm. rewrite along_0. done.
Qed.

(** A ray without length inside a box fails an assertion. *)
Theorem C64_no_length h c :
  qlsq (rc_orn c) = 1 → rc_p0 c = rc_p1 c → placed (rc_pos c) (rc_orn c) (in_box h) (rc_p0 c) → raycast_box h c = AssertFail.
Proof.
  intros Hq He Hin. apply placed_iff in Hin; [|done]. unfold raycast_box. rewrite <- He.
  set (p := to_object _ _ _) in *. assert (sub3 p p = V3 0 0 0) as -> by (destruct p; unfold sub3; simpl; f_equal; ring).
  destruct Hin as (H1 & H2 & H3). pose proof eps_pos. unfold box_axis. cbn [vx vy vz]. rewrite !Rabs_R0.
  assert (rltb 0 eps = true) as -> by (apply rltb_true; done).
  assert (∀ x y, - y <= x <= y → rltb y (Rabs x) = false) as K.
  { intros x y Hx. unfold rltb. destruct Rlt_dec as [Hl|]; [|done]. unfold Rabs in Hl. destruct Rcase_abs; lra. }
  rewrite (K _ _ H1). cbn [mbind option_bind]. rewrite (K _ _ H2). cbn [mbind option_bind]. rewrite (K _ _ H3). done.
Qed.

Definition box_case : ray_ctx := RCtx (V3 (-10) 0 0) qid (V3 0 0 0) (V3 1 0 0).
Lemma box_case_in x : placed (V3 (-10) 0 0) qid (in_box (V3 1 1 1)) x ↔
  - 11 <= vx x <= - 9 ∧ - 1 <= vy x <= 1 ∧ - 1 <= vz x <= 1.
Proof.
  rewrite placed_iff by apply unit_qid. unfold to_object. assert (qconj qid = qid) as ->.
  { unfold qconj, qid; simpl. f_equal; ring. }
  rewrite rotate_qid. destruct x. unfold in_box, sub3; simpl. lra.
Qed.
Lemma case_clear : dirs_clear qid (V3 0 0 0) (V3 1 0 0).
Proof.
  intros a. unfold axis_vec_q. rewrite rotate_qid. destruct a; unfold axis_vec, ex, ey, ez, dot3, sub3; simpl.
  - right. unfold eps. rewrite Rabs_right; lra.
  - left. ring.
  - left. ring.
Qed.

(** A box behind the start is hit, at a negative fraction. *)
Theorem C64_behind_refuted :
  ∃ h c r, qlsq (rc_orn c) = 1 ∧ 0 < vx h <= 10 ^ 20 ∧ 0 < vy h <= 10 ^ 20 ∧ 0 < vz h <= 10 ^ 20 ∧
    GeoModel.dist (rc_p0 c) (rc_pos c) <= 10 ^ 20 ∧ dirs_clear (rc_orn c) (rc_p0 c) (rc_p1 c) ∧ rc_p0 c ≠ rc_p1 c ∧
    raycast_box h c = Ok (Some r) ∧ h_frac r < 0 ∧ ¬ meets_ray (placed (rc_pos c) (rc_orn c) (in_box h)) (rc_p0 c) (rc_p1 c).
Proof.
  assert (Hbig : 10 <= 10 ^ 20) by (simpl; lra).
  assert (Hd : GeoModel.dist (V3 0 0 0) (V3 (-10) 0 0) <= 10 ^ 20).
  { apply dist_le_r; [lra|]. unfold lsq, dot3, sub3; simpl. lra. }
  exists (V3 1 1 1), box_case.
  destruct (box_ok (V3 1 1 1) box_case) as (o & Ho & Hm); simpl; try lra.
  { apply unit_qid. } { apply case_clear. } { apply case_ne. }
  assert (Hal : ∀ t, vx (along (V3 0 0 0) (V3 1 0 0) t) = t ∧ vy (along (V3 0 0 0) (V3 1 0 0) t) = 0 ∧ vz (along (V3 0 0 0) (V3 1 0 0) t) = 0).
  { intros t. unfold along, add3, scl, sub3; simpl. split_and!; ring. }
  destruct o as [r|].
  - exists r. destruct Hm as [[Hm _] _]. simpl in Hm. apply box_case_in in Hm. destruct (Hal (h_frac r)) as (A1 & A2 & A3). rewrite A1 in Hm.
    split; [apply unit_qid|]. simpl vx. simpl vy. simpl vz. simpl rc_p0. simpl rc_p1. simpl rc_pos. simpl rc_orn. split_and!; try lra; [apply case_clear|apply case_ne|done|].
    intros (t & Ht & Hi). apply box_case_in in Hi. destruct (Hal t) as (B1 & _). rewrite B1 in Hi. lra.
  - exfalso. apply Hm. exists (-10). simpl. apply box_case_in. destruct (Hal (-10)) as (A1 & A2 & A3). rewrite A1, A2, A3. lra.
Qed.

(** * C65: polyhedra *)

(** If the ray is parallel to no face, a hit is the first point of the segment
    that is in the polyhedron and a miss means that there is none.  If the ray
    starts outside, the normal points out of the polyhedron at that point. *)
Theorem C65_polyhedron faces c o :
  qlsq (rc_orn c) = 1 →
  (∀ v n, (v, n) ∈ faces → unit3 n ∧ eps <= Rabs (dot3 (sub3 (rc_p1 c) (rc_p0 c)) (rotate (rc_orn c) n))) →
  raycast_polyhedron faces c = Ok o →
  let S := placed (rc_pos c) (rc_orn c) (behind faces) in
  match o with
  | None => ¬ meets_segment S (rc_p0 c) (rc_p1 c)
  | Some r => segment_entry S (rc_p0 c) (rc_p1 c) (h_frac r) ∧ dot3 (sub3 (rc_p1 c) (rc_p0 c)) (h_normal r) < 0 ∧
      (¬ S (rc_p0 c) → outward S (along (rc_p0 c) (rc_p1 c) (h_frac r)) (h_normal r))
  end.
Proof. exact (poly_ok faces c o). Qed.

Theorem C65_polyhedron_defined faces c v n :
  qlsq (rc_orn c) = 1 →
  (∀ v n, (v, n) ∈ faces → unit3 n ∧ eps <= Rabs (dot3 (sub3 (rc_p1 c) (rc_p0 c)) (rotate (rc_orn c) n))) →
  (v, n) ∈ faces → dot3 (sub3 (rc_p1 c) (rc_p0 c)) (rotate (rc_orn c) n) < 0 →
  GeoModel.dist (to_world v (rc_pos c) (rc_orn c)) (rc_p0 c) <= 10 ^ 20 →
  ∃ o, raycast_polyhedron faces c = Ok o.
Proof. exact (poly_defined faces c v n). Qed.

(** A ray that is parallel to a face and starts strictly behind it misses,
    whatever the polyhedron. *)
Theorem C65_parallel_missed faces c v n :
  qlsq (rc_orn c) = 1 →
  (v, n) ∈ faces → Rabs (dot3 (sub3 (rc_p1 c) (rc_p0 c)) (rotate (rc_orn c) n)) < eps →
  dot3 (sub3 (rc_p0 c) (to_world v (rc_pos c) (rc_orn c))) (rotate (rc_orn c) n) < 0 →
  raycast_polyhedron faces c = Ok None.
Proof. exact (poly_parallel_none faces c v n). Qed.

Definition cube_faces : list (v3 * v3) :=
  [(V3 1 1 1, V3 1 0 0); (V3 (-1) 1 1, V3 (-1) 0 0); (V3 1 1 1, V3 0 1 0); (V3 1 (-1) 1, V3 0 (-1) 0);
   (V3 1 1 1, V3 0 0 1); (V3 1 1 (-1), V3 0 0 (-1))].
(** A ray through the middle of a cube, along one of its axes, misses it. *)
Theorem C65_cube_refuted :
  ∃ c, raycast_polyhedron cube_faces c = Ok None ∧ meets_segment (placed (rc_pos c) (rc_orn c) (behind cube_faces)) (rc_p0 c) (rc_p1 c).
Proof.
  exists (RCtx (V3 0 0 0) qid (V3 (-5) 0 0) (V3 5 0 0)). simpl. split.
  - apply (poly_parallel_none _ _ (V3 1 1 1) (V3 0 1 0)); simpl.
    + apply unit_qid.
    + unfold cube_faces. right. right. left.
    + rewrite rotate_qid. unfold dot3, sub3; simpl. pose proof eps_pos. rewrite Rabs_right; lra.
    + rewrite rotate_qid, to_world_qid. unfold dot3, sub3, add3; simpl. lra.
  - exists (1 / 2). split; [lra|]. exists (V3 0 0 0). split.
    + intros v n Hin. unfold cube_faces in Hin. rewrite !elem_of_cons in Hin.
      destruct Hin as [E|[E|[E|[E|[E|[E|E]]]]]]; try (injection E as -> ->; unfold dot3, sub3; simpl; lra). inversion E.
    + rewrite to_world_qid. unfold along, add3, scl, sub3; simpl. f_equal; lra.
Qed.

(** A ray that slants through the cube is hit *)
Example cube_slant :
  ∃ r, raycast_polyhedron cube_faces (RCtx (V3 0 0 0) qid (V3 (-5) (- 1 / 2) (- 1 / 2)) (V3 5 (1 / 2) (1 / 2))) = Ok (Some r).
Proof.
  set (c := RCtx (V3 0 0 0) qid (V3 (-5) (- 1 / 2) (- 1 / 2)) (V3 5 (1 / 2) (1 / 2))).
  assert (Hf : ∀ v n, (v, n) ∈ cube_faces → unit3 n ∧ eps <= Rabs (dot3 (sub3 (rc_p1 c) (rc_p0 c)) (rotate (rc_orn c) n))).
  { intros v n Hin. simpl. rewrite rotate_qid. unfold cube_faces in Hin. rewrite !elem_of_cons in Hin.
    destruct Hin as [E|[E|[E|[E|[E|[E|E]]]]]]; [injection E as -> ->..|inversion E];
      (split; [unfold unit3, dot3; simpl; lra|unfold dot3, sub3, eps; simpl; unfold Rabs; destruct Rcase_abs; lra]). }
  destruct (poly_defined cube_faces c (V3 (-1) 1 1) (V3 (-1) 0 0) unit_qid Hf) as [[r|] Ho].
  - right. left.
  - simpl. rewrite rotate_qid. unfold dot3, sub3; simpl. lra.
  - simpl rc_pos. simpl rc_orn. simpl rc_p0. rewrite to_world_qid. apply dist_le_r; [simpl; lra|]. unfold lsq, dot3, sub3, add3; simpl. lra.
  - exists r. done.
  - exfalso. refine (poly_ok cube_faces c None unit_qid Hf Ho _). simpl.
    exists (1 / 2). split; [lra|]. exists (V3 0 0 0). split.
    + intros v n Hin. unfold cube_faces in Hin. rewrite !elem_of_cons in Hin.
      destruct Hin as [E|[E|[E|[E|[E|[E|E]]]]]]; try (injection E as -> ->; unfold dot3, sub3; simpl; lra). inversion E.
    + rewrite to_world_qid. unfold along, add3, scl, sub3; simpl. f_equal; lra.
Qed.

(** A pyramid whose base is the plane y = 0, and a ray below the base, parallel
    to it: the ray does not meet the pyramid but hits it. *)
Definition pyramid : list (v3 * v3) :=
  [(V3 0 0 0, V3 0 (-1) 0); (V3 0 4 0, V3 (-4 / 5) (3 / 5) 0); (V3 0 4 0, V3 (4 / 5) (3 / 5) 0);
   (V3 0 4 0, V3 0 (3 / 5) (4 / 5)); (V3 0 4 0, V3 0 (3 / 5) (-4 / 5))].
Theorem C65_pyramid_refuted :
  ∃ c r, raycast_polyhedron pyramid c = Ok (Some r) ∧ ¬ meets_line (placed (rc_pos c) (rc_orn c) (behind pyramid)) (rc_p0 c) (rc_p1 c).
Proof.
  exists (RCtx (V3 0 0 0) qid (V3 (-10) (-1) (- 1 / 2)) (V3 10 (-1) (1 / 2))).
  assert (Hobj : ∀ x, to_object x (V3 0 0 0) qid = x).
  { intros x. unfold to_object. assert (qconj qid = qid) as -> by (unfold qconj, qid; simpl; f_equal; ring).
    rewrite rotate_qid. destruct x. unfold sub3; simpl. f_equal; ring. }
  pose proof scalar_max_big as HM. assert (HM' : 10 < scalar_max) by (simpl in HM; lra). clear HM.
  exists (Hit (5 / 16) (V3 (-4 / 5) (3 / 5) 0) (FPolyFace 1)). split.
  - unfold raycast_polyhedron. cbn [rc_p0 rc_p1 rc_pos rc_orn]. rewrite !Hobj.
    assert (Hd : sub3 (V3 10 (-1) (1 / 2)) (V3 (-10) (-1) (- 1 / 2)) = V3 20 0 1) by (unfold sub3; simpl; f_equal; lra). rewrite Hd.
    assert (P : poly_faces (V3 (-10) (-1) (- 1 / 2)) (V3 20 0 1) 0 pyramid (- scalar_max, scalar_max, None) = Some (5 / 16, 11 / 16, Some 1%nat)).
    { unfold pyramid. cbn [poly_faces]. unfold dot3, sub3; cbn [vx vy vz]. pose proof eps_pos. assert (He : eps < 1 / 2) by (unfold eps; lra).
      assert (∀ x, 1 / 2 <= x ∨ x <= - 1 / 2 → rltb (Rabs x) eps = false) as Kf.
      { intros x Hx. unfold rltb. destruct Rlt_dec as [Hl|]; [|done]. unfold Rabs in Hl. destruct Rcase_abs; destruct Hx; lra. }
      assert (rltb (Rabs (0 * 20 + -1 * 0 + 0 * 1)) eps = true) as ->.
      { apply rltb_true. replace (0 * 20 + -1 * 0 + 0 * 1) with 0 by ring. rewrite Rabs_R0. lra. }
      assert (∀ x y, x < y → rltb x y = true) as Lt by (intros; apply rltb_true; done).
      assert (∀ x y, y <= x → rltb x y = false) as Ge by (intros; unfold rltb; destruct Rlt_dec; [lra|done]).
      rewrite (Ge 0) by lra.
      rewrite (Kf (-4 / 5 * 20 + 3 / 5 * 0 + 0 * 1)) by lra. rewrite (Lt (-4 / 5 * 20 + 3 / 5 * 0 + 0 * 1)) by lra.
      set (t1 := _ / (-4 / 5 * 20 + 3 / 5 * 0 + 0 * 1)). assert (Et : t1 = 5 / 16) by (unfold t1; field). rewrite Et. clear t1 Et.
      rewrite (Lt (- scalar_max) (5 / 16)) by lra. rewrite (Ge scalar_max (5 / 16)) by lra.
      rewrite (Kf (4 / 5 * 20 + 3 / 5 * 0 + 0 * 1)) by lra. rewrite (Ge (4 / 5 * 20 + 3 / 5 * 0 + 0 * 1)) by lra.
      set (t1 := _ / (4 / 5 * 20 + 3 / 5 * 0 + 0 * 1)). assert (Et : t1 = 11 / 16) by (unfold t1; field). rewrite Et. clear t1 Et.
      rewrite (Lt (11 / 16) scalar_max) by lra. rewrite (Ge (11 / 16) (5 / 16)) by lra.
      rewrite (Kf (0 * 20 + 3 / 5 * 0 + 4 / 5 * 1)) by lra. rewrite (Ge (0 * 20 + 3 / 5 * 0 + 4 / 5 * 1)) by lra.
      set (t1 := _ / (0 * 20 + 3 / 5 * 0 + 4 / 5 * 1)). assert (Et : t1 = 17 / 4) by (unfold t1; field). rewrite Et. clear t1 Et.
      rewrite (Ge (17 / 4) (11 / 16)) by lra. rewrite (Ge (11 / 16) (5 / 16)) by lra.
      rewrite (Kf (0 * 20 + 3 / 5 * 0 + -4 / 5 * 1)) by lra. rewrite (Lt (0 * 20 + 3 / 5 * 0 + -4 / 5 * 1)) by lra.
      set (t1 := _ / (0 * 20 + 3 / 5 * 0 + -4 / 5 * 1)). assert (Et : t1 = - 13 / 4) by (unfold t1; field). rewrite Et. clear t1 Et.
      rewrite (Ge (5 / 16) (- 13 / 4)) by lra. rewrite (Ge (11 / 16) (5 / 16)) by lra. done. }
    rewrite P.
    assert ((rltb (5 / 16) 0 && rltb (11 / 16) 0) || (rltb 1 (5 / 16) && rltb 1 (11 / 16)) = false) as ->.
    { unfold rltb. repeat destruct Rlt_dec; try lra; done. }
    cbn. rewrite rotate_qid. rewrite clamp_in by lra. done.
  - simpl. intros (t & x & Hb & Ex). rewrite to_world_qid in Ex.
    specialize (Hb (V3 0 0 0) (V3 0 (-1) 0) ltac:(unfold pyramid; left)).
    destruct x as [a b e]. unfold along, add3, scl, sub3 in Ex; simpl in Ex. injection Ex as E1 E2 E3.
    unfold dot3, sub3 in Hb; simpl in Hb. lra.
Qed.

(** * C66: cylinders and capsules *)

(** A hit is a point of the cylinder; if it is not behind the start and the ray
    starts outside, it is the first one of the half-line.  A miss from outside
    means that the half-line meets the cylinder at most at the rim of a cap.
    The normals of hits on the caps point out of the cylinder. *)
Theorem C66_cylinder r hl ax c o :
  qlsq (rc_orn c) = 1 → 0 <= r → 0 < hl →
  let a := axis_vec_q ax (rc_orn c) in
  axis_clear hl a (rc_p0 c) (rc_p1 c) →
  raycast_cylinder r hl ax c = Ok o →
  let S := cylinder (rc_pos c) a r hl in
  match o with
  | None => ¬ S (rc_p0 c) → ¬ ∃ t, 0 <= t ∧ S (along (rc_p0 c) (rc_p1 c) t) ∧ - hl < axial (rc_pos c) a (along (rc_p0 c) (rc_p1 c) t) < hl
  | Some h =>
      S (along (rc_p0 c) (rc_p1 c) (h_frac h)) ∧
      (0 <= h_frac h → ¬ S (rc_p0 c) → ray_entry S (rc_p0 c) (rc_p1 c) (h_frac h)) ∧
      match h_feature h with
      | FCylinderSide => line_entry S (rc_p0 c) (rc_p1 c) (h_frac h)
      | FCylinderFace _ => outward S (along (rc_p0 c) (rc_p1 c) (h_frac h)) (h_normal h) ∧
          Rabs (axial (rc_pos c) a (along (rc_p0 c) (rc_p1 c) (h_frac h))) = hl
      | _ => False
      end
  end.
Proof.
  intros Hq Hr Hh a Hc Ho. pose proof (cyl_ok r hl ax c o Hq Hr Hh Hc Ho) as H. cbn zeta in *. destruct o as [h|]; [|exact H].
  destruct H as (H1 & H2 & H3). split; [exact H1|]. split; [exact H2|]. destruct (h_feature h); try exact H3. apply H3.
Qed.
Theorem C66_cylinder_defined r hl ax c :
  qlsq (rc_orn c) = 1 → 0 <= r → tiny < 2 * hl →
  let a := axis_vec_q ax (rc_orn c) in
  eps < lsq (sub3 (rc_p1 c) (rc_p0 c)) → dot3 (sub3 (rc_p1 c) (rc_p0 c)) a ≠ 0 →
  (∀ t, 0 < rad2 (rc_pos c) a (along (rc_p0 c) (rc_p1 c) t)) →
  ∃ o, raycast_cylinder r hl ax c = Ok o.
Proof. exact (cyl_defined r hl ax c). Qed.

(** The normal of a hit on the side is perpendicular to the ray.  Unless the ray
    only touches the infinite cylinder, it does not point out of the cylinder. *)
Theorem C66_side_normal_wrong r hl ax c h :
  qlsq (rc_orn c) = 1 → 0 <= r → 0 < hl →
  let a := axis_vec_q ax (rc_orn c) in
  axis_clear hl a (rc_p0 c) (rc_p1 c) →
  raycast_cylinder r hl ax c = Ok (Some h) → h_feature h = FCylinderSide →
  dot3 (sub3 (rc_p1 c) (rc_p0 c)) (h_normal h) = 0 ∧
  ((∃ t, rad2 (rc_pos c) a (along (rc_p0 c) (rc_p1 c) t) < r * r) →
   ¬ outward (cylinder (rc_pos c) a r hl) (along (rc_p0 c) (rc_p1 c) (h_frac h)) (h_normal h)).
Proof.
  intros Hq Hr Hh a Hc Ho Hf. pose proof (cyl_ok r hl ax c _ Hq Hr Hh Hc Ho) as H. cbn zeta in *.
  destruct H as (_ & _ & H3). rewrite Hf in H3. tauto.
Qed.
(** No side hit is reported for a ray that crosses the axis: its normal has no value. *)
Theorem C66_axis_crossed r hl ax c h t :
  qlsq (rc_orn c) = 1 → 0 <= r → 0 < hl →
  let a := axis_vec_q ax (rc_orn c) in
  axis_clear hl a (rc_p0 c) (rc_p1 c) → rad2 (rc_pos c) a (along (rc_p0 c) (rc_p1 c) t) = 0 →
  raycast_cylinder r hl ax c = Ok (Some h) → h_feature h ≠ FCylinderSide.
Proof.
  intros Hq Hr Hh a Hc Ht Ho Hf. pose proof (cyl_ok r hl ax c _ Hq Hr Hh Hc Ho) as H. cbn zeta in *.
  destruct H as (_ & _ & H3). rewrite Hf in H3. destruct H3 as (_ & _ & H3 & _). specialize (H3 t). fold a in H3. lra.
Qed.
(** A ray parallel to the caps that passes beside a cap, within the infinite
    cylinder, divides by zero. *)
Theorem C66_beside_cap r hl ax c t :
  qlsq (rc_orn c) = 1 → 0 <= r → tiny < 2 * hl →
  let a := axis_vec_q ax (rc_orn c) in
  eps < lsq (cross3 (scl (2 * hl) a) (sub3 (rc_p1 c) (rc_p0 c))) →
  dot3 (sub3 (rc_p1 c) (rc_p0 c)) a = 0 → hl <= Rabs (axial (rc_pos c) a (rc_p0 c)) →
  rad2 (rc_pos c) a (along (rc_p0 c) (rc_p1 c) t) <= r * r →
  raycast_cylinder r hl ax c = UB.
Proof. exact (cyl_beside r hl ax c t). Qed.

(** An oblique ray that enters through the side, and one that crosses the axis *)
Definition cyl_case (z : R) : ray_ctx := RCtx (V3 0 0 0) qid (V3 (-5) 5 z) (V3 5 (-5) z).
Lemma axis_x_qid : axis_vec_q AX qid = V3 1 0 0.
Proof. unfold axis_vec_q. rewrite rotate_qid. done. Qed.
Lemma cyl_case_geo z t : axial (V3 0 0 0) (V3 1 0 0) (along (V3 (-5) 5 z) (V3 5 (-5) z) t) = - 5 + 10 * t ∧
  rad2 (V3 0 0 0) (V3 1 0 0) (along (V3 (-5) 5 z) (V3 5 (-5) z) t) = (5 - 10 * t) * (5 - 10 * t) + z * z.
Proof. unfold rad2, axial, along, lsq, dot3, sub3, add3, scl; simpl. split; ring. Qed.
Lemma cyl_case_clear z : axis_clear 10 (axis_vec_q AX qid) (V3 (-5) 5 z) (V3 5 (-5) z).
Proof.
  right. rewrite axis_x_qid. unfold eps, lsq, cross3, scl, sub3, dot3; simpl. lra.
Qed.
Lemma cyl_case_out z : ¬ cylinder (V3 0 0 0) (V3 1 0 0) 1 10 (V3 (-5) 5 z).
Proof.
  rewrite cylinder_iff; [|unfold dot3; simpl; ring|lra]. pose proof (cyl_case_geo z 0) as [_ G]. rewrite along_0 in G. rewrite G. nra.
Qed.
Lemma cyl_case_side z o : - 1 < z < 1 → raycast_cylinder 1 10 AX (cyl_case z) = Ok o → ∃ h, o = Some h ∧ h_feature h = FCylinderSide.
Proof.
  intros Hz Ho. pose proof (cyl_ok 1 10 AX (cyl_case z) o unit_qid ltac:(lra) ltac:(lra) (cyl_case_clear z) Ho) as H.
  cbn zeta in H. simpl rc_pos in H. simpl rc_orn in H. simpl rc_p0 in H. simpl rc_p1 in H. rewrite axis_x_qid in H.
  assert (Ha : dot3 (V3 1 0 0) (V3 1 0 0) = 1) by (unfold dot3; simpl; ring).
  destruct o as [h|].
  - exists h. split; [done|]. destruct H as (H1 & _ & H3). destruct (h_feature h); try done. exfalso.
    destruct H3 as [_ H3]. apply cylinder_iff in H1 as [_ H1]; [|done|lra].
    destruct (cyl_case_geo z (h_frac h)) as [G1 G2]. rewrite G1 in H3. rewrite G2 in H1.
    assert (- 1 <= 5 - 10 * h_frac h <= 1) by nra. unfold Rabs in H3. destruct Rcase_abs; lra.
  - exfalso. apply H; [apply cyl_case_out|]. exists (1 / 2). split; [lra|].
    destruct (cyl_case_geo z (1 / 2)) as [G1 G2]. rewrite cylinder_iff, G1, G2 by (done || lra). split; [split; [lra|]|lra]. nra.
Qed.
Theorem C66_side_normal_refuted :
  ∃ r hl ax c h, let S := cylinder (rc_pos c) (axis_vec_q ax (rc_orn c)) r hl in
    ¬ S (rc_p0 c) ∧ raycast_cylinder r hl ax c = Ok (Some h) ∧ h_feature h = FCylinderSide ∧
    ¬ outward S (along (rc_p0 c) (rc_p1 c) (h_frac h)) (h_normal h).
Proof.
  destruct (cyl_defined 1 10 AX (cyl_case (3 / 5))) as [o Ho]; simpl.
  { apply unit_qid. } { lra. } { unfold tiny; simpl; lra. }
  { unfold eps, lsq, dot3, sub3; simpl. lra. }
  { rewrite axis_x_qid. unfold dot3, sub3; simpl. intros E. lra. }
  { intros t. rewrite axis_x_qid. destruct (cyl_case_geo (3 / 5) t) as [_ ->]. pose proof (Rle_0_sqr (5 - 10 * t)) as P. unfold Rsqr in P. lra. }
  destruct (cyl_case_side (3 / 5) _ ltac:(lra) Ho) as (h & -> & Hf).
  exists 1, 10, AX, (cyl_case (3 / 5)), h. cbn zeta.
  destruct (C66_side_normal_wrong 1 10 AX (cyl_case (3 / 5)) h unit_qid ltac:(lra) ltac:(lra) (cyl_case_clear _) Ho Hf) as [_ Hn].
  split; [simpl; rewrite axis_x_qid; apply cyl_case_out|]. split; [done|]. split; [done|]. apply Hn.
  exists (1 / 2). simpl. rewrite axis_x_qid. destruct (cyl_case_geo (3 / 5) (1 / 2)) as [_ ->]. lra.
Qed.
Theorem C66_axis_crossed_refuted :
  ∃ r hl ax c, let S := cylinder (rc_pos c) (axis_vec_q ax (rc_orn c)) r hl in
    ¬ S (rc_p0 c) ∧ meets_segment S (rc_p0 c) (rc_p1 c) ∧ ∀ o, raycast_cylinder r hl ax c ≠ Ok o.
Proof.
  exists 1, 10, AX, (cyl_case 0). cbn zeta. simpl rc_pos. simpl rc_orn. simpl rc_p0. simpl rc_p1. rewrite axis_x_qid.
  split; [apply cyl_case_out|]. split.
  - exists (1 / 2). split; [lra|]. rewrite cylinder_iff by (unfold dot3; simpl; lra).
    destruct (cyl_case_geo 0 (1 / 2)) as [-> ->]. lra.
  - intros o Ho. destruct (cyl_case_side 0 _ ltac:(lra) Ho) as (h & -> & Hf).
    apply (C66_axis_crossed 1 10 AX (cyl_case 0) h (1 / 2) unit_qid ltac:(lra) ltac:(lra) (cyl_case_clear _)); auto.
    simpl. rewrite axis_x_qid. destruct (cyl_case_geo 0 (1 / 2)) as [_ ->]. lra.
Qed.

(** Capsules, seen from outside: a miss means that the half-line misses, a hit
    that is not behind the start is the first point of the half-line.  Excepted
    are rays through the rim of the first hemisphere. *)
Theorem C66_capsule r hl ax c o :
  qlsq (rc_orn c) = 1 → 0 <= r → 0 < hl → rc_p0 c ≠ rc_p1 c →
  let a := axis_vec_q ax (rc_orn c) in
  let S := capsule (add3 (rc_pos c) (scl hl a)) (add3 (rc_pos c) (scl (- hl) a)) r in
  axis_clear hl a (rc_p0 c) (rc_p1 c) →
  (∀ t, rad2 (rc_pos c) a (along (rc_p0 c) (rc_p1 c) t) = r * r → axial (rc_pos c) a (along (rc_p0 c) (rc_p1 c) t) ≠ hl) →
  ¬ S (rc_p0 c) →
  raycast_capsule r hl ax c = Ok o →
  match o with
  | None => ¬ meets_ray S (rc_p0 c) (rc_p1 c)
  | Some h =>
      (0 <= h_frac h → ray_entry S (rc_p0 c) (rc_p1 c) (h_frac h)) ∧
      match h_feature h with
      | FCapsuleSide => line_entry S (rc_p0 c) (rc_p1 c) (h_frac h) ∧ dot3 (sub3 (rc_p1 c) (rc_p0 c)) (h_normal h) = 0
      | FHemisphere _ => 0 <= h_frac h
      | _ => False
      end
  end.
Proof. exact (cap_ok r hl ax c o). Qed.

(** A ray parallel to the axis of a capsule never hits it *)
Theorem C66_capsule_parallel r hl ax c h :
  lsq (cross3 (scl (2 * hl) (axis_vec_q ax (rc_orn c))) (sub3 (rc_p1 c) (rc_p0 c))) <= eps →
  raycast_capsule r hl ax c ≠ Ok (Some h).
Proof. exact (cap_parallel r hl ax c h). Qed.
Theorem C66_capsule_parallel_refuted :
  ∃ r hl ax c, let a := axis_vec_q ax (rc_orn c) in
    let S := capsule (add3 (rc_pos c) (scl hl a)) (add3 (rc_pos c) (scl (- hl) a)) r in
    ¬ S (rc_p0 c) ∧ meets_segment S (rc_p0 c) (rc_p1 c) ∧ ∀ o, raycast_capsule r hl ax c ≠ Ok o.
Proof.
  set (c := RCtx (V3 0 0 0) qid (V3 5 0 0) (V3 (-5) 0 0)). exists 1, 1, AX, c. cbn zeta.
  assert (Ha : dot3 (V3 1 0 0) (V3 1 0 0) = 1) by (unfold dot3; simpl; ring).
  assert (G : ∀ t, axial (V3 0 0 0) (V3 1 0 0) (along (V3 5 0 0) (V3 (-5) 0 0) t) = 5 - 10 * t ∧ rad2 (V3 0 0 0) (V3 1 0 0) (along (V3 5 0 0) (V3 (-5) 0 0) t) = 0).
  { intros t. unfold rad2, axial, along, lsq, dot3, sub3, add3, scl; simpl. split; ring. }
  assert (Hout : ¬ capsule (add3 (V3 0 0 0) (scl 1 (V3 1 0 0))) (add3 (V3 0 0 0) (scl (- (1)) (V3 1 0 0))) 1 (V3 5 0 0)).
  { rewrite capsule_iff by (done || lra). intros (k & Hk & Hd). pose proof (G 0) as [G1 G2]. rewrite along_0 in G1, G2. rewrite G1, G2 in Hd. nra. }
  assert (Hm : meets_segment (capsule (add3 (V3 0 0 0) (scl 1 (V3 1 0 0))) (add3 (V3 0 0 0) (scl (- (1)) (V3 1 0 0))) 1) (V3 5 0 0) (V3 (-5) 0 0)).
  { exists (1 / 2). split; [lra|]. rewrite capsule_iff by (done || lra). exists 0. destruct (G (1 / 2)) as [-> ->]. lra. }
  assert (Hx : lsq (cross3 (scl (2 * 1) (axis_vec_q AX qid)) (sub3 (V3 (-5) 0 0) (V3 5 0 0))) = 0).
  { rewrite axis_x_qid. unfold lsq, cross3, scl, sub3, dot3; simpl. ring. }
  simpl rc_pos. simpl rc_orn. simpl rc_p0. simpl rc_p1.
  split; [rewrite axis_x_qid; done|]. split; [rewrite axis_x_qid; done|].
  intros [h|] Ho.
  - apply (cap_parallel 1 1 AX c h) in Ho; [done|]. simpl. rewrite Hx. pose proof eps_pos. lra.
  - refine (cap_ok 1 1 AX c None unit_qid _ _ _ _ _ _ Ho _); simpl; rewrite ?axis_x_qid; try lra; auto.
    + intros [=]. lra.
    + left. rewrite axis_x_qid in Hx. done.
    + intros t. destruct (G t) as [_ ->]. lra.
    + destruct Hm as (t & Ht & Hm). exists t. split; [lra|done].
Qed.

(** The normal of a hit on a hemisphere is taken from the centre of the capsule
    to the point where the ray enters the infinite cylinder: it does not point
    out of the capsule at the hit. *)
Theorem C66_hemisphere_normal_refuted :
  ∃ r hl ax c h, let a := axis_vec_q ax (rc_orn c) in
    let S := capsule (add3 (rc_pos c) (scl hl a)) (add3 (rc_pos c) (scl (- hl) a)) r in
    ¬ S (rc_p0 c) ∧ raycast_capsule r hl ax c = Ok (Some h) ∧
    ¬ outward S (along (rc_p0 c) (rc_p1 c) (h_frac h)) (h_normal h).
Proof.
  set (c := RCtx (V3 0 0 0) qid (V3 (8 / 5) 5 0) (V3 (8 / 5) (-5) 0)).
  assert (Ha : dot3 (V3 1 0 0) (V3 1 0 0) = 1) by (unfold dot3; simpl; ring).
  assert (Hal : ∀ t, along (V3 (8 / 5) 5 0) (V3 (8 / 5) (-5) 0) t = V3 (8 / 5) (5 - 10 * t) 0).
  { intros t. unfold along, add3, scl, sub3; simpl. f_equal; ring. }
  assert (G : ∀ y, axial (V3 0 0 0) (V3 1 0 0) (V3 (8 / 5) y 0) = 8 / 5 ∧ rad2 (V3 0 0 0) (V3 1 0 0) (V3 (8 / 5) y 0) = y * y).
  { intros y. unfold rad2, axial, along, lsq, dot3, sub3, add3, scl; simpl. split; ring. }
  assert (Hne : V3 (8 / 5) 5 0 ≠ V3 (8 / 5) (-5) 0) by (intros [=]; lra).
  set (v := add3 (V3 0 0 0) (scl 1 (V3 1 0 0))).
  assert (Hb : ∀ t, ball v 1 (along (V3 (8 / 5) 5 0) (V3 (8 / 5) (-5) 0) t) ↔ - 4 / 5 <= 5 - 10 * t <= 4 / 5).
  { intros t. rewrite Hal, ball_sq by lra. unfold v, lsq, dot3, sub3, add3, scl; simpl. split; [intros; split; nra|intros; nra]. }
  assert (Hs : intersect_ray_sphere (V3 (8 / 5) 5 0) (V3 (8 / 5) (-5) 0) v 1 = Ok (Some (21 / 50))).
  { destruct (ray_sphere_ok (V3 (8 / 5) 5 0) (V3 (8 / 5) (-5) 0) v 1 Hne ltac:(lra)) as [[_ H]|(t & -> & (H1 & H2 & H3) & _)].
    - exfalso. apply H. exists (1 / 2). split; [lra|]. apply Hb. lra.
    - do 2 f_equal. apply Hb in H2. specialize (H3 (21 / 50) ltac:(lra) ltac:(apply Hb; lra)). lra. }
  set (n := div3 (V3 (8 / 5) 1 0) (len (V3 (8 / 5) 1 0))).
  assert (Hl : 1 <= len (V3 (8 / 5) 1 0)).
  { unfold len. rewrite <- sqrt_1 at 1. apply sqrt_le_1_alt. unfold lsq, dot3; simpl. lra. }
  exists 1, 1, AX, c, (Hit (21 / 50) n (FHemisphere 0)). cbn zeta. simpl rc_orn. simpl rc_pos. simpl rc_p0. simpl rc_p1. simpl h_frac. simpl h_normal.
  rewrite axis_x_qid. split; [|split].
  - rewrite capsule_iff by (done || lra). intros (k & _ & Hk). destruct (G 5) as [E1 E]. rewrite E, E1 in Hk.
    pose proof (Rle_0_sqr (8 / 5 - k)) as P. unfold Rsqr in P. lra.
  - unfold raycast_capsule. simpl rc_orn. simpl rc_pos. simpl rc_p0. simpl rc_p1.
    pose proof (ray_cylinder_ok (V3 (8 / 5) 5 0) (V3 (8 / 5) (-5) 0) (V3 0 0 0) qid 1 1 AX unit_qid ltac:(lra) ltac:(lra)) as RC. cbn zeta in RC.
    rewrite verts, axis_x_qid in *.
    destruct (intersect_ray_cylinder _ _ _ _ _ _ _) as [| |fin fout ds nn].
    + exfalso. revert RC. unfold eps, lsq, cross3, scl, sub3, dot3; simpl. lra.
    + specialize (RC (1 / 2)). rewrite Hal in RC. destruct (G (5 - 10 * (1 / 2))) as [_ E]. rewrite E in RC. lra.
    + destruct RC as (K & tm & de & cc & HK & Hde & Hds & En & EK & -> & -> & _ & _ & _ & Hrad).
      assert (R : ∀ t, (5 - 10 * t) * (5 - 10 * t) = ds + K * ((t - tm) * (t - tm))).
      { intros t. rewrite <- Hrad, Hal. destruct (G (5 - 10 * t)) as [_ ->]. done. }
      pose proof (R 0) as R0. pose proof (R 1) as R1. pose proof (R (1 / 2)) as R2.
      assert (Htm : tm = 1 / 2) by nra. subst tm. assert (ds = 0) by nra. subst ds. assert (K = 100) by nra. subst K.
      assert (Hde' : de = 1 / 10) by nra. subst de.
      rewrite lerp_along, Hal. replace (5 - 10 * (1 / 2 - 1 / 10)) with 1 by lra.
      assert (dot3 (sub3 (V3 (8 / 5) 1 0) (add3 (V3 0 0 0) (scl 1 (V3 1 0 0))))
        (sub3 (add3 (V3 0 0 0) (scl (- (1)) (V3 1 0 0))) (add3 (V3 0 0 0) (scl 1 (V3 1 0 0)))) = - 6 / 5) as ->.
      { unfold dot3, sub3, add3, scl; simpl. lra. }
      assert (rltb 0 (- 6 / 5) = false) as -> by (unfold rltb; destruct Rlt_dec; [lra|done]).
      assert (rltb (- 6 / 5) 0 = true) as -> by (apply rltb_true; lra). cbn [andb].
      unfold raycast_hemisphere. simpl rc_p0. simpl rc_p1. simpl rc_pos. fold v. rewrite Hs. cbn [mbind res_bind opt_res].
      rewrite lerp_along, Hal. replace (5 - 10 * (1 / 2 - 1 / 10)) with 1 by lra.
      assert (sub3 (V3 (8 / 5) 1 0) (V3 0 0 0) = V3 (8 / 5) 1 0) as -> by (unfold sub3; simpl; f_equal; ring).
      unfold normalize3, assert_. assert (rltb tiny (len (V3 (8 / 5) 1 0)) = true) as ->; [|done].
      apply rltb_true. assert (tiny < 1) by (unfold tiny; simpl; lra). lra.
  - intros [_ Ho]. specialize (Ho (V3 (32 / 17) (8 / 17) 0)). rewrite Hal in Ho.
    assert (capsule v (add3 (V3 0 0 0) (scl (- (1)) (V3 1 0 0))) 1 (V3 (32 / 17) (8 / 17) 0)) as Hc.
    { unfold v. rewrite capsule_iff by (done || lra). exists 1. split; [lra|]. unfold rad2, axial, lsq, dot3, sub3; simpl. lra. }
    specialize (Ho Hc). set (L := len _) in *. unfold n, dot3, sub3, div3 in Ho; simpl in Ho.
    assert (0 < / L) by (apply Rinv_0_lt_compat; lra). unfold Rdiv in Ho. nra.
Qed.

(** * C67: planes and meshes *)

(** The plane is hit where the line crosses it, on either side of the start and
    at any distance. *)
Theorem C67_plane n k c :
  unit3 n →
  (eps <= Rabs (dot3 (sub3 (rc_p1 c) (rc_p0 c)) n) →
   ∃ t, raycast_plane n k c = Some (Hit t n FNone) ∧
     ∀ t', plane_set n k (along (rc_p0 c) (rc_p1 c) t') ↔ t' = t) ∧
  (dot3 (sub3 (rc_p1 c) (rc_p0 c)) n = 0 → eps <= Rabs (k - dot3 (rc_p0 c) n) →
   raycast_plane n k c = None ∧ ¬ meets_line (plane_set n k) (rc_p0 c) (rc_p1 c)) ∧
  (dot3 (sub3 (rc_p1 c) (rc_p0 c)) n = 0 → plane_set n k (rc_p0 c) →
   raycast_plane n k c = Some (Hit 0 n FNone) ∧ ∀ t, plane_set n k (along (rc_p0 c) (rc_p1 c) t)).
Proof. exact (plane_ok n k c). Qed.
Theorem C67_plane_behind_refuted :
  ∃ n k c h, unit3 n ∧ raycast_plane n k c = Some h ∧ h_frac h < 0 ∧ ¬ meets_ray (plane_set n k) (rc_p0 c) (rc_p1 c).
Proof.
  exists (V3 0 1 0), 0, (RCtx (V3 0 0 0) qid (V3 0 1 0) (V3 0 2 0)), (Hit (-1) (V3 0 1 0) FNone).
  assert (Hu : unit3 (V3 0 1 0)) by (unfold unit3, dot3; simpl; ring).
  destruct (plane_ok (V3 0 1 0) 0 (RCtx (V3 0 0 0) qid (V3 0 1 0) (V3 0 2 0)) Hu) as [H _].
  destruct H as (t & Ht & Hp); simpl.
  { unfold dot3, sub3, eps; simpl. rewrite Rabs_right; lra. }
  simpl in Hp. assert (t = -1) as ->.
  { symmetry. apply Hp. unfold plane_set, along, dot3, add3, scl, sub3; simpl. ring. }
  split; [done|]. split; [exact Ht|]. split; [lra|]. intros (u & Hu2 & Hin). apply Hp in Hin. lra.
Qed.

(** A triangle is hit exactly where the segment crosses it. *)
Theorem C67_triangle p0 p1 v0 v1 v2 n :
  winding v0 v1 v2 n → tri_clear p0 p1 v0 n →
  ∀ t, intersect_segment_triangle p0 p1 v0 v1 v2 n = Some t ↔ 0 <= t <= 1 ∧ on_triangle v0 v1 v2 (along p0 p1 t).
Proof. exact (tri_ok p0 p1 v0 v1 v2 n). Qed.

(** A triangle, and a segment that crosses it *)
Example triangle_case : ∃ n, winding (V3 0 0 0) (V3 1 0 0) (V3 0 1 0) n ∧ tri_clear (V3 (1 / 4) (1 / 4) 1) (V3 (1 / 4) (1 / 4) (-1)) (V3 0 0 0) n ∧
  intersect_segment_triangle (V3 (1 / 4) (1 / 4) 1) (V3 (1 / 4) (1 / 4) (-1)) (V3 0 0 0) (V3 1 0 0) (V3 0 1 0) n = Some (1 / 2).
Proof.
  exists (V3 0 0 1).
  assert (Hw : winding (V3 0 0 0) (V3 1 0 0) (V3 0 1 0) (V3 0 0 1)).
  { split; [unfold unit3, dot3; simpl; ring|]. exists 1. split; [lra|]. unfold scl, cross3, sub3; simpl. f_equal; ring. }
  assert (Hc : tri_clear (V3 (1 / 4) (1 / 4) 1) (V3 (1 / 4) (1 / 4) (-1)) (V3 0 0 0) (V3 0 0 1)).
  { left. unfold eps, dot3, sub3; simpl. unfold Rabs. destruct Rcase_abs; lra. }
  split; [done|]. split; [done|]. apply (tri_ok _ _ _ _ _ _ Hw Hc). split; [lra|]. exists (1 / 2), (1 / 4), (1 / 4). unfold along, add3, scl, sub3; simpl. split_and!; try lra. f_equal; lra.
Qed.

(** A mesh is hit at the first of its points on the segment, with the normal of
    a triangle that contains it. *)
Theorem C67_mesh ts c :
  (∀ t, t ∈ ts → winding (t_v0 t) (t_v1 t) (t_v2 t) (t_normal t) ∧ tri_clear (rc_p0 c) (rc_p1 c) (t_v0 t) (t_normal t)) →
  match raycast_mesh ts c with
  | None => ¬ meets_segment (mesh_set ts) (rc_p0 c) (rc_p1 c)
  | Some h => segment_entry (mesh_set ts) (rc_p0 c) (rc_p1 c) (h_frac h) ∧
      ∃ i t, ts !! i = Some t ∧ h_feature h = FTriangle i ∧ h_normal h = t_normal t ∧
        on_triangle (t_v0 t) (t_v1 t) (t_v2 t) (along (rc_p0 c) (rc_p1 c) (h_frac h))
  end.
Proof. exact (mesh_entry ts c). Qed.

(** In the plane of a triangle only the start of the segment is looked at. *)
Theorem C67_coplanar p0 p1 v0 v1 v2 n :
  winding v0 v1 v2 n → dot3 (sub3 p1 p0) n = 0 → dot3 (sub3 v0 p0) n = 0 →
  (on_triangle v0 v1 v2 p0 → intersect_segment_triangle p0 p1 v0 v1 v2 n = Some 0) ∧
  (¬ on_triangle v0 v1 v2 p0 → intersect_segment_triangle p0 p1 v0 v1 v2 n = None).
Proof. exact (tri_coplanar p0 p1 v0 v1 v2 n). Qed.

(** * C68: the nearest of several *)

(** Compounds: the part with the least fraction, the first of them if several
    parts have it; its normal is turned with the compound. *)
Theorem C68_compound nodes c o :
  let p0 := to_object (rc_p0 c) (rc_pos c) (rc_orn c) in
  let p1 := to_object (rc_p1 c) (rc_pos c) (rc_orn c) in
  let cast n := raycast_part (rn_shape n) (RCtx (rn_pos n) (rn_orn n) p0 p1) in
  raycast_compound nodes c = Ok o →
  match o with
  | None => ∀ n, n ∈ nodes → cast n = Ok None
  | Some r => ∃ k n h, nodes !! k = Some n ∧ cast n = Ok (Some h) ∧
      r = Hit (h_frac h) (rotate (rc_orn c) (h_normal h)) (FChild k (h_feature h)) ∧
      ∀ k' n' h', nodes !! k' = Some n' → cast n' = Ok (Some h') → h_frac h <= h_frac h' ∧ ((k' < k)%nat → h_frac h < h_frac h')
  end.
Proof. exact (compound_ok nodes c o). Qed.

(** Bodies: likewise, whatever the sign of the fractions *)
Theorem C68_bodies p0 p1 cs o :
  let cast cd := raycast_body (cd_shape cd) (RCtx (cd_pos cd) (cd_orn cd) p0 p1) in
  raycast_bodies p0 p1 cs None = Ok o →
  match o with
  | None => ∀ cd, cd ∈ cs → cast cd = Ok None
  | Some (e, h) => ∃ k cd, cs !! k = Some cd ∧ cast cd = Ok (Some h) ∧ e = cd_ent cd ∧
      ∀ k' cd' h', cs !! k' = Some cd' → cast cd' = Ok (Some h') → h_frac h <= h_frac h' ∧ ((k' < k)%nat → h_frac h < h_frac h')
  end.
Proof. exact (bodies_ok p0 p1 cs o). Qed.

(** Of spheres and meshes only: what is hit is the first of their points on the
    half-line. *)
Theorem C68_spheres p0 p1 cs o :
  p0 ≠ p1 →
  (∀ cd, cd ∈ cs → ∃ r, cd_shape cd = RPart (RSphere r) ∧ 0 <= r) →
  raycast_bodies p0 p1 cs None = Ok o →
  let U x := ∃ cd r, cd ∈ cs ∧ cd_shape cd = RPart (RSphere r) ∧ ball (cd_pos cd) r x in
  match o with
  | None => ¬ meets_ray U p0 p1
  | Some (e, h) => ray_entry U p0 p1 (h_frac h)
  end.
Proof.
  intros Hne Hs Ho U. pose proof (bodies_ok p0 p1 cs o Ho) as B. destruct o as [[e h]|].
  - destruct B as (k & cd & Hk & Hc & _ & Hmin). pose proof (elem_of_list_lookup_2 _ _ _ Hk) as Hin.
    destruct (Hs cd Hin) as (r & Er & Hr). rewrite Er in Hc. simpl in Hc.
    destruct (sphere_ok r (RCtx (cd_pos cd) (cd_orn cd) p0 p1) _ Hne Hr Hc) as ((E1 & E2 & E3) & _). simpl in E1, E2, E3.
    split; [done|]. split; [exists cd, r; auto|].
    intros t Ht (cd' & r' & Hin' & Er' & Hb'). apply elem_of_list_lookup_1 in Hin' as [k' Hk'].
    assert (Hr' : 0 <= r').
    { destruct (Hs cd' (elem_of_list_lookup_2 _ _ _ Hk')) as (r'' & E'' & H''). rewrite Er' in E''. injection E'' as ->. done. }
    destruct (raycast_body (cd_shape cd') (RCtx (cd_pos cd') (cd_orn cd') p0 p1)) as [[h'|]| | |] eqn:Ec.
    + destruct (Hmin k' cd' h' Hk' Ec) as [Hle _]. rewrite Er' in Ec. simpl in Ec.
      destruct (sphere_ok r' (RCtx (cd_pos cd') (cd_orn cd') p0 p1) _ Hne Hr' Ec) as ((_ & _ & F3) & _). specialize (F3 t Ht Hb'). simpl in F3. lra.
    + rewrite Er' in Ec. simpl in Ec. pose proof (sphere_ok r' (RCtx (cd_pos cd') (cd_orn cd') p0 p1) _ Hne Hr' Ec) as F. simpl in F. exfalso. apply F. exists t. auto.
    + exfalso. apply bodies_gen in Ho as [Hd _]. destruct (Hd cd' (elem_of_list_lookup_2 _ _ _ Hk')) as (rr & Hrr). rewrite Ec in Hrr. discriminate.
    + exfalso. apply bodies_gen in Ho as [Hd _]. destruct (Hd cd' (elem_of_list_lookup_2 _ _ _ Hk')) as (rr & Hrr). rewrite Ec in Hrr. discriminate.
    + exfalso. apply bodies_gen in Ho as [Hd _]. destruct (Hd cd' (elem_of_list_lookup_2 _ _ _ Hk')) as (rr & Hrr). rewrite Ec in Hrr. discriminate.
  - intros (t & Ht & cd & r & Hin & Er & Hb). specialize (B cd Hin). rewrite Er in B. simpl in B.
    destruct (Hs cd Hin) as (r' & Er' & Hr). rewrite Er in Er'. injection Er' as <-.
    apply (sphere_ok r (RCtx (cd_pos cd) (cd_orn cd) p0 p1) _ Hne Hr B). exists t. auto.
Qed.

(** The start is inside a big box, and a sphere lies ahead: the box is reported,
    at a negative fraction. *)
Theorem C68_inside_refuted :
  ∃ p0 p1 cs e h, raycast_bodies p0 p1 cs None = Ok (Some (e, h)) ∧ h_frac h < 0 ∧
    ∃ cd h', cd ∈ cs ∧ cd_ent cd ≠ e ∧ raycast_body (cd_shape cd) (RCtx (cd_pos cd) (cd_orn cd) p0 p1) = Ok (Some h') ∧ 0 < h_frac h' < 1.
Proof.
  set (sp := Cand 1 (RPart (RSphere 1)) (V3 10 0 0) qid). set (bx := Cand 0 (RPart (RBox (V3 50 50 50))) (V3 0 0 0) qid).
  set (p0 := V3 0 0 0). set (p1 := V3 20 0 0). exists p0, p1, [sp; bx].
  assert (Hne : p0 ≠ p1) by (unfold p0, p1; intros [=]; lra).
  pose proof tiny_pos. assert (tiny < 1) by (unfold tiny; simpl; lra).
  assert (Hball : ∀ t, ball (V3 10 0 0) 1 (along p0 p1 t) ↔ 9 / 20 <= t <= 11 / 20).
  { intros t. rewrite ball_sq by lra. unfold p0, p1, along, lsq, dot3, sub3, add3, scl; simpl. split; [intros; split; nra|intros; nra]. }
  destruct (sphere_defined 1 (RCtx (V3 10 0 0) qid p0 p1)) as [o Ho]; [done|lra| |].
  { simpl. rewrite ball_sq by lra. unfold p0, lsq, dot3, sub3; simpl. nra. }
  pose proof (sphere_ok 1 (RCtx (V3 10 0 0) qid p0 p1) o Hne ltac:(lra) Ho) as S. simpl in S.
  destruct o as [hs|].
  2: { exfalso. apply S. exists (1 / 2). split; [lra|]. apply Hball. lra. }
  destruct S as ((_ & Hb & _) & _). apply Hball in Hb.
  assert (Hbig : 100 <= 10 ^ 20) by (simpl; lra).
  destruct (box_ok (V3 50 50 50) (RCtx (V3 0 0 0) qid p0 p1)) as (o & Hbo & Hm); simpl; try lra.
  { apply unit_qid. } { apply dist_le_r; [lra|]. unfold p0, lsq, dot3, sub3; simpl. lra. }
  { intros a. unfold axis_vec_q. rewrite rotate_qid. unfold p0, p1. destruct a; unfold axis_vec, ex, ey, ez, dot3, sub3; simpl.
    - right. unfold eps. rewrite Rabs_right; lra.
    - left. ring.
    - left. ring. }
  { done. }
  assert (Hin : ∀ t, placed (V3 0 0 0) qid (in_box (V3 50 50 50)) (along p0 p1 t) ↔ - 50 <= t * 20 <= 50).
  { intros t. rewrite placed_iff by apply unit_qid. unfold to_object. assert (qconj qid = qid) as -> by (unfold qconj, qid; simpl; f_equal; ring).
    rewrite rotate_qid. unfold p0, p1, along, in_box, sub3, add3, scl; simpl. lra. }
  simpl in Hm. destruct o as [hb|].
  2: { exfalso. apply Hm. exists 0. apply Hin. lra. }
  destruct Hm as [[_ Hm] _]. specialize (Hm (- 2) ltac:(apply Hin; lra)).
  exists 0%nat, hb. split.
  - assert (Hcl : rltb (h_frac hb) (h_frac hs) = true) by (apply rltb_true; lra).
    unfold sp, bx. cbn [raycast_bodies cd_shape cd_pos cd_orn cd_ent raycast_body raycast_part]. rewrite Ho. cbn [mbind res_bind].
    rewrite Hbo. cbn -[rltb]. rewrite Hcl. done.
  - split; [lra|]. exists sp, hs. split; [left|]. split; [done|]. split; [exact Ho|]. lra.
Qed.
Print Assumptions C63_sphere.
Print Assumptions C63_sphere_defined.
Print Assumptions C63_beyond_refuted.
Print Assumptions C64_box.
Print Assumptions C64_inside.
Print Assumptions C64_no_length.
Print Assumptions C64_behind_refuted.
Print Assumptions C65_polyhedron.
Print Assumptions C65_polyhedron_defined.
Print Assumptions C65_parallel_missed.
Print Assumptions C65_cube_refuted.
Print Assumptions C65_pyramid_refuted.
Print Assumptions C66_cylinder.
Print Assumptions C66_cylinder_defined.
Print Assumptions C66_side_normal_wrong.
Print Assumptions C66_axis_crossed.
Print Assumptions C66_beside_cap.
Print Assumptions C66_side_normal_refuted.
Print Assumptions C66_axis_crossed_refuted.
Print Assumptions C66_capsule.
Print Assumptions C66_capsule_parallel.
Print Assumptions C66_capsule_parallel_refuted.
Print Assumptions C66_hemisphere_normal_refuted.
Print Assumptions C67_plane.
Print Assumptions C67_plane_behind_refuted.
Print Assumptions C67_triangle.
Print Assumptions C67_mesh.
Print Assumptions C67_coplanar.
Print Assumptions C68_compound.
Print Assumptions C68_bodies.
Print Assumptions C68_spheres.
Print Assumptions C68_inside_refuted.
