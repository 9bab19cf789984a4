(** C72-C76: contact points of pairs of shapes. *)
From Verif Require Import Outcome BoxModel GeoModel RotSpec RotProofs NearModel NearSpec NearProofs NearProofs2 RayModel RaySpec
  RayProofs2 RayProofs3 RayProps SupModel SupSpec SupProofs SupProofs2 SupProofs3 ColModel ColSpec ColProofs ColProofs2 ColProofs3 ColProofs4 ColProofs5.
From Coq Require Import Reals Lra Psatz.
Local Open Scope R_scope.

(** * C72: spheres and capsules *)

(** What a contact point says: apart, the two pivots are the nearest points of
    the solids; and moving A along the normal by more than the depth separates
    the solids. *)
Theorem C72_nearest (A B : v3 → Prop) pa pb n d : 0 <= d → contact A B pa pb n d →
  GeoModel.dist pa pb = d ∧ nearest_pair A B pa pb.
Proof. exact (contact_nearest A B pa pb n d). Qed.
Theorem C72_depth (A B : v3 → Prop) pa pb n d s : contact A B pa pb n d → 0 < d + s →
  ∀ x, ¬ (moved (scl s n) A x ∧ B x).
Proof. exact (contact_depth A B pa pb n d s). Qed.

Theorem C72_spheres ra rb c : turned c → 0 <= ra → 0 <= rb → 0 <= c_thr c →
  c_posA c = c_posB c ∨ eps < GeoModel.dist (c_posA c) (c_posB c) →
  contacts (ball (c_posA c) ra) (ball (c_posB c) rb) c (sphere_sphere ra rb c).
Proof. exact (sphere_sphere_ok ra rb c). Qed.
Theorem C72_capsule_sphere ra hl a rb c : turned c → 0 <= ra → 0 <= rb → 0 <= c_thr c → eps < 4 * hl * hl →
  (∀ q, nearest (on_segment (capsule_vertex hl a (c_posA c) (c_ornA c) false) (capsule_vertex hl a (c_posA c) (c_ornA c) true)) (c_posB c) q →
     (q = c_posB c ∧ a ≠ AZ) ∨ eps < lsq (sub3 q (c_posB c))) →
  ∃ l, capsule_sphere ra hl a rb c = Ok l ∧
    contacts (capsule_at ra hl a (c_posA c) (c_ornA c)) (ball (c_posB c) rb) c l.
Proof. exact (capsule_sphere_ok ra hl a rb c). Qed.
(** A capsule that is a sphere fails an assertion *)
Theorem C72_capsule_sphere_short ra hl a rb c : qlsq (c_ornA c) = 1 → 4 * hl * hl <= eps → capsule_sphere ra hl a rb c = AssertFail.
Proof. exact (capsule_sphere_short ra hl a rb c). Qed.
(** The first point of two capsules always is right, the second one if the
    segments do not overlap late (see C60_second_pair) *)
Theorem C72_capsules ra hla aa rb hlb ab c : turned c → 0 <= ra → 0 <= rb → 0 <= c_thr c →
  eps < 4 * hla * hla → eps < 4 * hlb * hlb →
  let va0 := capsule_vertex hla aa (c_posA c) (c_ornA c) false in
  let va1 := capsule_vertex hla aa (c_posA c) (c_ornA c) true in
  let vb0 := capsule_vertex hlb ab (c_posB c) (c_ornB c) false in
  let vb1 := capsule_vertex hlb ab (c_posB c) (c_ornB c) true in
  seg_clear va0 va1 vb0 vb1 → crossing_ok va0 va1 vb0 vb1 →
  ∃ l, capsule_capsule ra hla aa rb hlb ab c = Ok l ∧
    (l = [] → apart (capsule_at ra hla aa (c_posA c) (c_ornA c)) (capsule_at rb hlb ab (c_posB c) (c_ornB c)) (c_thr c)) ∧
    (∀ i p, l !! i = Some p → p_dist p <= c_thr c ∧
       (i = 0%nat ∨ ¬ late_overlap va0 va1 vb0 vb1 →
        contact_point (capsule_at ra hla aa (c_posA c) (c_ornA c)) (capsule_at rb hlb ab (c_posB c) (c_ornB c)) c p)).
Proof. exact (capsule_capsule_ok ra hla aa rb hlb ab c). Qed.

Ltac vc := unfold cross3, vec0, axis_vec, ex, ey, ez; vec; ring.
Definition home : cctx := CC vec0 qid vec0 qid (2 / 100).
Lemma turned_home : turned home.
Proof. split; apply unit_qid. Qed.
Lemma axis_qid a : axis_vec_q a qid = axis_vec a.
Proof. unfold axis_vec_q. apply rotate_qid. Qed.
Lemma seg_ends a b : on_segment a b a ∧ on_segment a b b.
Proof. split; [exists 0|exists 1]; (split; [lra|vc]). Qed.
Lemma dist_self x : GeoModel.dist x x = 0.
Proof. unfold GeoModel.dist, len. replace (lsq (sub3 x x)) with 0 by (unfold lsq, dot3, sub3; cbn [vx vy vz]; ring). apply sqrt_0. Qed.
Lemma capsule_end r hl a pos orn i : 0 <= r → capsule_at r hl a pos orn (capsule_vertex hl a pos orn i).
Proof. intros H. exists (capsule_vertex hl a pos orn i). rewrite dist_self. split; [|done]. destruct i; apply seg_ends. Qed.
Lemma ball_centre p r : 0 <= r → ball p r p.
Proof. intros H. unfold ball. rewrite dist_self. done. Qed.

(** A sphere at the centre of a capsule along the z axis is pushed along the
    axis, too little to separate them *)
Theorem C72_capsule_axis_refuted : ∃ ra hl a rb c p, turned c ∧ 0 < ra ∧ 0 < rb ∧ 0 <= c_thr c ∧ eps < 4 * hl * hl ∧
  capsule_sphere ra hl a rb c = Ok [p] ∧
  ¬ contact_point (capsule_at ra hl a (c_posA c) (c_ornA c)) (ball (c_posB c) rb) c p.
Proof.
  pose proof eps_pos as E0. pose proof eps_small as E1.
  assert (C : ∃ p, capsule_sphere (1/2) 1 AZ (1/2) home = Ok [p] ∧ p_normal p = V3 0 0 1 ∧ p_dist p = - (1/2 + 1/2)).
  { unfold capsule_sphere, capsule_vertex, closest_point_segment, home. cbn [c_posA c_ornA c_posB c_ornB c_thr]. rewrite axis_qid.
    assert (D : dot3 (sub3 (sub3 vec0 (scl 1 (axis_vec AZ))) (add3 vec0 (scl 1 (axis_vec AZ)))) (sub3 (sub3 vec0 (scl 1 (axis_vec AZ))) (add3 vec0 (scl 1 (axis_vec AZ)))) = 4)
      by (unfold dot3, sub3, add3, scl, axis_vec, ez, vec0; cbn [vx vy vz]; ring).
    assert (N : dot3 (sub3 vec0 (add3 vec0 (scl 1 (axis_vec AZ)))) (sub3 (sub3 vec0 (scl 1 (axis_vec AZ))) (add3 vec0 (scl 1 (axis_vec AZ)))) = 2)
      by (unfold dot3, sub3, add3, scl, axis_vec, ez, vec0; cbn [vx vy vz]; ring).
    rewrite D, N. assert (rltb eps 4 = true) as -> by (apply rltb_true; lra). cbn [assert_ mbind res_bind].
    assert (clamp_unit (2 / 4) = 1 / 2) as ->. { unfold clamp_unit. destruct (Rlt_dec (2 / 4) 0); [lra|]. destruct (Rlt_dec 1 (2 / 4)); lra. }
    set (q := add3 (add3 vec0 (scl 1 (axis_vec AZ))) _). assert (q = vec0) as ->.
    { unfold q, sub3, add3, scl, axis_vec, ez, vec0; cbn [vx vy vz]. f_equal; field. }
    assert (lsq (sub3 vec0 vec0) = 0) as -> by (unfold lsq, dot3, sub3, vec0; cbn [vx vy vz]; ring).
    assert (rltb ((1 / 2 + 1 / 2 + 2 / 100) * (1 / 2 + 1 / 2 + 2 / 100)) 0 = false) as -> by (apply rltb_false; lra).
    assert (rltb eps 0 = false) as -> by (apply rltb_false; lra). eexists. split; [done|]. split; done. }
  destruct C as (p & E & En & Ed). exists (1/2), 1, AZ, (1/2), home, p. split; [apply turned_home|].
  cbn [c_thr home]. split_and!; try lra; [done|]. intros (_ & _ & _ & _ & G). rewrite En, Ed in G.
  assert (B : ball vec0 (1/2) (V3 0 0 (1/2))) by (apply dist_le_r; [lra|]; unfold lsq, dot3, sub3, vec0; cbn [vx vy vz]; lra).
  specialize (G _ _ (capsule_end (1/2) 1 AZ vec0 qid true ltac:(lra)) B).
  unfold capsule_vertex in G. rewrite axis_qid in G. revert G. unfold dot3, sub3, scl, axis_vec, ez, vec0; cbn [vx vy vz]. lra.
Qed.

(** Two capsules at the same place along the y axis *)
Theorem C72_coaxial_refuted : ∃ ra hl a rb c p l, turned c ∧ 0 < ra ∧ 0 < rb ∧ 0 <= c_thr c ∧ eps < 4 * hl * hl ∧
  capsule_capsule ra hl a rb hl a c = Ok (p :: l) ∧
  ¬ contact_point (capsule_at ra hl a (c_posA c) (c_ornA c)) (capsule_at rb hl a (c_posB c) (c_ornB c)) c p.
Proof.
  pose proof eps_pos as E0. pose proof eps_small as E1.
  set (v0 := capsule_vertex 1 AY vec0 qid false). set (v1 := capsule_vertex 1 AY vec0 qid true).
  assert (V0 : v0 = V3 0 1 0) by (unfold v0, capsule_vertex; rewrite axis_qid; unfold axis_vec, ey, vec0; vec; ring).
  assert (V1 : v1 = V3 0 (-1) 0) by (unfold v1, capsule_vertex; rewrite axis_qid; unfold axis_vec, ey, vec0; vec; ring).
  assert (X0 : cross3 (sub3 v1 v0) (sub3 v1 v0) = vec0) by (vc).
  assert (L4 : lsq (sub3 v1 v0) = 4) by (rewrite V0, V1; unfold lsq, dot3, sub3; cbn [vx vy vz]; ring).
  assert (SC : seg_clear v0 v1 v0 v1).
  { unfold seg_clear. cbv zeta. rewrite L4, X0. split_and!; [right; lra..|]. left. unfold lsq, dot3, vec0; cbn [vx vy vz]. ring. }
  assert (C : ∃ p l, capsule_capsule (1/2) 1 AY (1/2) 1 AY home = Ok (p :: l) ∧ p_normal p = V3 0 1 0 ∧ p_dist p = - (1/2 + 1/2)).
  { unfold capsule_capsule, home. cbn [c_posA c_ornA c_posB c_ornB c_thr]. fold v0 v1.
    destruct (seg_clear_ok true v0 v1 v0 v1 SC) as (_ & _ & _ & _ & Ed & NP). destruct (ss_written v0 v1 v0 v1) as (W1 & _ & _).
    set (s := closest_point_segment_segment true v0 v1 v0 v1) in *. destruct W1 as [k Wk]; [lra..|].
    destruct NP as (_ & _ & NP). specialize (NP v0 v0 (proj1 (seg_ends v0 v1)) (proj1 (seg_ends v0 v1))). rewrite dist_self in NP.
    assert (Z : ss_dist s = 0).
    { rewrite Ed. unfold GeoModel.dist in NP. pose proof (len_sq (sub3 (ss_c1 s) (ss_c2 s))). pose proof (len_nonneg (sub3 (ss_c1 s) (ss_c2 s))). nra. }
    rewrite Z. assert (rltb ((1 / 2 + 1 / 2 + 2 / 100) * (1 / 2 + 1 / 2 + 2 / 100)) 0 = false) as -> by (apply rltb_false; lra).
    assert (rltb eps 0 = false) as -> by (apply rltb_false; lra). rewrite X0, Wk. cbn [opt_res mbind res_bind].
    set (w := if rltb _ 0 then _ else _). assert (T : try_normalize w = None).
    { assert (w = vec0) as -> by (unfold w; destruct (rltb _ 0); [vc|done]). unfold try_normalize.
      assert (lsq vec0 = 0) as -> by (unfold lsq, dot3, vec0; cbn [vx vy vz]; ring). pose proof tiny_pos. destruct (Rlt_dec tiny 0); [lra|done]. }
    rewrite T. do 2 eexists. split; [done|]. split; done. }
  destruct C as (p & l & E & En & Ed). exists (1/2), 1, AY, (1/2), home, p, l. split; [apply turned_home|].
  cbn [c_thr home]. split_and!; try lra; [done|]. intros (_ & _ & _ & _ & G). rewrite En, Ed in G.
  specialize (G _ _ (capsule_end (1/2) 1 AY vec0 qid true ltac:(lra)) (capsule_end (1/2) 1 AY vec0 qid false ltac:(lra))).
  fold v0 v1 in G. rewrite V0, V1 in G. revert G. unfold dot3, sub3; cbn [vx vy vz]. lra.
Qed.

(** Capsules that are spheres give no points or read a variable that was not set *)
Theorem C72_capsules_short ra hla aa rb hlb ab c : turned c → 4 * hla * hla <= eps ∨ 4 * hlb * hlb <= eps →
  capsule_capsule ra hla aa rb hlb ab c = Ok [] ∨ capsule_capsule ra hla aa rb hlb ab c = UB.
Proof. exact (capsule_capsule_short ra hla aa rb hlb ab c). Qed.
Theorem C72_capsules_short_refuted : ∃ ra rb aa ab c, turned c ∧ 0 < ra ∧ 0 < rb ∧ capsule_capsule ra 0 aa rb 0 ab c = UB.
Proof.
  pose proof eps_pos as E0. exists 1, 1, AX, AX, home. split; [apply turned_home|]. split; [lra|]. split; [lra|].
  unfold capsule_capsule, capsule_vertex, home. cbn [c_posA c_ornA c_posB c_ornB c_thr].
  set (x := axis_vec_q AX qid). assert (add3 vec0 (scl 0 x) = vec0) as -> by (vc). assert (sub3 vec0 (scl 0 x) = vec0) as -> by (vc).
  unfold closest_point_segment_segment. assert (Z : sub3 vec0 vec0 = vec0) by (vc). rewrite !Z.
  assert (D : dot3 vec0 vec0 = 0) by (unfold dot3, vec0; cbn [vx vy vz]; ring). rewrite !D. unfold lsq. rewrite !D.
  assert (rleb 0 eps = true) as -> by (apply rleb_true; lra). cbn [andb ss_dist ss_num].
  assert (rltb ((1 + 1 + 2 / 100) * (1 + 1 + 2 / 100)) 0 = false) as -> by (apply rltb_false; lra).
  destruct (if rltb eps 0 then _ else _). done.
Qed.

Example C72_case : ∃ l, capsule_sphere 1 2 AX 1 (CC vec0 qid (V3 0 3 0) qid (2 / 100)) = Ok l ∧
  contacts (capsule_at 1 2 AX vec0 qid) (ball (V3 0 3 0) 1) (CC vec0 qid (V3 0 3 0) qid (2 / 100)) l.
Proof.
  pose proof eps_small. apply (C72_capsule_sphere 1 2 AX 1 (CC vec0 qid (V3 0 3 0) qid (2 / 100))); cbn [c_posA c_ornA c_posB c_ornB c_thr]; try lra; [split; apply unit_qid|].
  intros q [(t & Ht & ->) _]. right. unfold capsule_vertex. rewrite axis_qid. unfold lsq, dot3, sub3, add3, scl, axis_vec, ex, vec0; cbn [vx vy vz]. nra.
Qed.
Example C72_spheres_case : contacts (ball vec0 1) (ball (V3 0 3 0) 2) (CC vec0 qid (V3 0 3 0) qid 0) (sphere_sphere 1 2 (CC vec0 qid (V3 0 3 0) qid 0)).
Proof.
  apply (C72_spheres 1 2 (CC vec0 qid (V3 0 3 0) qid 0)); cbn [c_posA c_ornA c_posB c_ornB c_thr]; try lra; [split; apply unit_qid|]. right.
  unfold GeoModel.dist, len. replace (lsq (sub3 vec0 (V3 0 3 0))) with (3 * 3) by (unfold lsq, dot3, sub3, vec0; cbn [vx vy vz]; ring).
  rewrite sqrt_square by lra. pose proof eps_small. lra.
Qed.

(** * C73: planes *)

(** A sphere: the point of the sphere and the distance are those of its lowest
    point.  The threshold is not used: no point unless they touch.  The pivot on
    the plane is right only for one place of the plane's body. *)
Theorem C73_sphere r n k c : turned c → unit3 n → 0 <= r →
  let A := ball (c_posA c) r in
  let l := sphere_plane r n k c in
  (l = [] ↔ ∀ a, A a → 0 < dot3 a n - k) ∧
  (∀ p, p ∈ l → p_normal p = n ∧ A (world_a c p) ∧ p_dist p = dot3 (world_a c p) n - k ∧
     (∀ a, A a → p_dist p <= dot3 a n - k) ∧
     (plane_point A n k (world_a c p) (world_b c p) (p_dist p) ↔ c_posB c = scl (2 * k) n)).
Proof. exact (sphere_plane_ok r n k c). Qed.
Theorem C73_capsule r hl a n k c : turned c → unit3 n → 0 <= r → plane_home c →
  plane_contacts (capsule_at r hl a (c_posA c) (c_ornA c)) n k 0 c (capsule_plane r hl a n k c).
Proof. exact (capsule_plane_ok r hl a n k c). Qed.
Theorem C73_cylinder r hl a n k c : turned c → unit3 n → 0 < r → 0 <= hl → plane_home c →
  off_axis (axis_vec_q a (c_ornA c)) n = 0 ∨ eps < off_axis (axis_vec_q a (c_ornA c)) n →
  ∃ l, cylinder_plane r hl a n k c = Ok l ∧
    plane_contacts (cylinder (c_posA c) (axis_vec_q a (c_ornA c)) r hl) n k support_tolerance c l.
Proof. exact (cylinder_plane_ok r hl a n k c). Qed.
(** A box: wherever the body of the plane is; every point is a corner, at most
    the support tolerance higher than the lowest one. *)
Theorem C73_box h n k c : turned c → unit3 n → 0 <= vx h → 0 <= vy h → 0 <= vz h → len h < scalar_max →
  ∃ l, box_plane h n k c = Ok l ∧ plane_contacts (placed (c_posA c) (c_ornA c) (in_box h)) n k 0 c l ∧
    ∀ p, p ∈ l → box_corner h (p_a p) ∧ ∀ a, placed (c_posA c) (c_ornA c) (in_box h) a → p_dist p < dot3 a n - k + support_tolerance.
Proof. exact (box_plane_ok h n k c). Qed.

(** A plane that is not through the origin: the pivot on it is off, though its
    body is at the origin. *)
Theorem C73_sphere_pivot_refuted : ∃ r n k c p, turned c ∧ unit3 n ∧ 0 < r ∧ plane_home c ∧
  sphere_plane r n k c = [p] ∧ ¬ plane_point (ball (c_posA c) r) n k (world_a c p) (world_b c p) (p_dist p).
Proof.
  set (c := CC (V3 0 2 0) qid vec0 qid (2 / 100)).
  assert (T : turned c) by (split; apply unit_qid).
  assert (C : ∃ p, sphere_plane 1 ey 1 c = [p]).
  { unfold sphere_plane, c. cbn [c_posA c_posB c_ornA c_ornB].
    assert (rltb 1 (dot3 ey (sub3 (V3 0 2 0) (scl 1 ey))) = false) as -> by (apply rltb_false; unfold dot3, sub3, scl, ey; cbn [vx vy vz]; lra). eauto. }
  destruct C as (p & E). exists 1, ey, 1, c, p. split; [done|]. split; [apply unit_ey|]. split; [lra|]. split; [done|]. split; [done|].
  destruct (C73_sphere 1 ey 1 c T unit_ey ltac:(lra)) as [_ S]. destruct (S p) as (_ & _ & _ & _ & W). { rewrite E. apply elem_of_list_singleton. done. }
  intros Z. apply W in Z. unfold c in Z. cbn [c_posB] in Z. unfold scl, ey, vec0 in Z; cbn [vx vy vz] in Z. injection Z. lra.
Qed.
(** A sphere within the threshold of a plane gets no point, a capsule does *)
Theorem C73_sphere_threshold_refuted : ∃ r n k c, turned c ∧ unit3 n ∧ 0 < r ∧ sphere_plane r n k c = [] ∧
  ∃ a, ball (c_posA c) r a ∧ dot3 a n - k < c_thr c.
Proof.
  set (c := CC (V3 0 (101 / 100) 0) qid vec0 qid (2 / 100)). exists 1, ey, 0, c. split; [split; apply unit_qid|]. split; [apply unit_ey|]. split; [lra|]. split.
  - unfold sphere_plane, c. cbn [c_posA c_posB c_ornA c_ornB].
    assert (rltb 1 (dot3 ey (sub3 (V3 0 (101 / 100) 0) (scl 0 ey))) = true) as -> by (apply rltb_true; unfold dot3, sub3, scl, ey; cbn [vx vy vz]; lra). done.
  - exists (V3 0 (1 / 100) 0). split; [apply dist_le_r; [lra|]; unfold c, lsq, dot3, sub3; cbn [vx vy vz c_posA]; lra|].
    unfold c, dot3, ey; cbn [vx vy vz c_thr]. lra.
Qed.
(** With the body of the plane elsewhere the pivots of capsules and cylinders are off *)
Theorem C73_moved_refuted : ∃ r hl a n k c p, turned c ∧ unit3 n ∧ 0 < r ∧ p ∈ capsule_plane r hl a n k c ∧
  ¬ plane_point (capsule_at r hl a (c_posA c) (c_ornA c)) n k (world_a c p) (world_b c p) (p_dist p).
Proof.
  set (c := CC (V3 0 1 0) qid (V3 0 5 0) qid (2 / 100)).
  set (v := capsule_vertex 1 AX (V3 0 1 0) qid false).
  assert (V : v = V3 1 1 0) by (unfold v, capsule_vertex; rewrite axis_qid; unfold axis_vec, ex; vc).
  assert (D : dot3 (sub3 v (scl 0 ey)) ey - 1 = 0) by (rewrite V; unfold dot3, sub3, scl, ey; cbn [vx vy vz]; ring).
  set (p := CP (to_object (sub3 v (scl 1 ey)) (V3 0 1 0) qid) (project_plane v (scl 0 ey) ey) ey 0 AOnB).
  exists 1, 1, AX, ey, 0, c, p. split; [split; apply unit_qid|]. split; [apply unit_ey|]. split; [lra|]. split.
  - unfold capsule_plane. cbn [flat_map]. unfold c. cbn [c_posA c_ornA c_thr]. fold v. rewrite D.
    assert (rltb (2 / 100) 0 = false) as -> by (apply rltb_false; lra). apply elem_of_cons. left. done.
  - intros (_ & H & _). revert H. unfold world_b, p, c. cbn [p_b c_posB c_ornB]. rewrite to_world_qid, V.
    unfold project_plane, dot3, sub3, add3, scl, ey; cbn [vx vy vz]. lra.
Qed.
Example C73_case : ∃ l, box_plane (V3 1 2 3) ey 0 (CC (V3 0 2 0) qid (V3 7 0 0) qid (2 / 100)) = Ok l ∧
  plane_contacts (placed (V3 0 2 0) qid (in_box (V3 1 2 3))) ey 0 0 (CC (V3 0 2 0) qid (V3 7 0 0) qid (2 / 100)) l ∧ l ≠ [].
Proof.
  set (c := CC (V3 0 2 0) qid (V3 7 0 0) qid (2 / 100)).
  assert (L : len (V3 1 2 3) < scalar_max).
  { assert (len (V3 1 2 3) <= 4). { unfold len. apply Rle_trans with (sqrt (4 * 4)); [apply sqrt_le_1_alt; unfold lsq, dot3; cbn [vx vy vz]; lra|rewrite sqrt_square; lra]. }
    pose proof scalar_max_big. assert (0 < 10 ^ 30) by (apply pow_lt; lra). unfold scalar_max in *. lra. }
  destruct (C73_box (V3 1 2 3) ey 0 c) as (l & E & P & _); cbn [vx vy vz]; try lra; [split; apply unit_qid|apply unit_ey|].
  exists l. split; [exact E|]. split; [exact P|]. intros Z. apply (proj1 P) with (a := V3 0 0 0) in Z.
  - revert Z. unfold c, dot3, ey; cbn [vx vy vz c_thr]. lra.
  - exists (V3 0 (-2) 0). split; [unfold in_box; cbn [vx vy vz]; lra|]. unfold c; cbn [c_posA c_ornA]. rewrite to_world_qid. vc.
Qed.

(** * C74: spheres against boxes and cylinders *)

(** The centre of the sphere in the space of the box *)
Definition in_b (c : cctx) : v3 := to_object (c_posA c) (c_posB c) (c_ornB c).
Theorem C74_box_outside r h c : turned c → 0 <= r → 0 <= c_thr c → 0 <= vx h → 0 <= vy h → 0 <= vz h →
  (∀ q, nearest (in_box h) (in_b c) q → eps < lsq (sub3 (in_b c) q)) →
  ∃ l, sphere_box r h c = Ok l ∧ contacts (ball (c_posA c) r) (placed (c_posB c) (c_ornB c) (in_box h)) c l.
Proof.
  intros. apply sphere_box_out; try done. apply H5. apply outside_ok; done.
Qed.
(** With the centre inside, points and normal are those of the nearest face,
    but the distance is that of the face on the negative z side. *)
Theorem C74_box_inside r h c : turned c → 0 <= r → 0 <= c_thr c → 0 <= vx h → 0 <= vy h → 0 <= vz h → in_box h (in_b c) →
  ∃ pt q, sphere_box r h c = Ok [pt] ∧ nearest (on_box h) (in_b c) q ∧
    contact (ball (c_posA c) r) (placed (c_posB c) (c_ornB c) (in_box h)) (world_a c pt) (world_b c pt) (p_normal pt) (- GeoModel.dist (in_b c) q - r) ∧
    p_dist pt = - (vz h + vz (in_b c)) - r.
Proof. intros. apply sphere_box_in; done. Qed.
(** A centre just outside fails an assertion *)
Theorem C74_box_near r h c : turned c → 0 <= r → 0 <= c_thr c → 0 <= vx h → 0 <= vy h → 0 <= vz h → ¬ in_box h (in_b c) →
  (∀ q, nearest (in_box h) (in_b c) q → lsq (sub3 (in_b c) q) <= eps ∧ lsq (sub3 (in_b c) q) <= r * r) →
  sphere_box r h c = AssertFail.
Proof. intros Hc Hr Ht H1 H2 H3 I N. destruct (N _ (outside_ok h (in_b c) H1 H2 H3)). apply sphere_box_near; done. Qed.
Theorem C74_cylinder ra hl a rb c : turned c → 0 < ra → 0 <= hl → 0 <= rb → 0 <= c_thr c → eps < 4 * hl * hl →
  let ax := axis_vec_q a (c_ornA c) in
  let A := cylinder (c_posA c) ax ra hl in
  let s := axial (c_posA c) ax (c_posB c) in
  let foot := add3 (c_posA c) (scl s ax) in
  (- hl < s < hl → (foot = c_posB c ∧ dot3 ax ey = 0) ∨ eps < lsq (sub3 foot (c_posB c))) →
  (¬ (- hl < s < hl) → ∀ q, nearest A (c_posB c) q → clear_of q (c_posB c)) →
  ∃ l, cylinder_sphere ra hl a rb c = Ok l ∧ contacts A (ball (c_posB c) rb) c l.
Proof. exact (cylinder_sphere_ok ra hl a rb c). Qed.
Theorem C74_cylinder_flat ra hl a rb c : qlsq (c_ornA c) = 1 → 4 * hl * hl <= eps → cylinder_sphere ra hl a rb c = AssertFail.
Proof. exact (cylinder_sphere_short ra hl a rb c). Qed.

Theorem C74_inside_refuted : ∃ r h c p, turned c ∧ 0 < r ∧ 0 <= c_thr c ∧ 0 < vx h ∧ 0 < vy h ∧ 0 < vz h ∧ in_box h (in_b c) ∧
  sphere_box r h c = Ok [p] ∧
  ¬ contact_point (ball (c_posA c) r) (placed (c_posB c) (c_ornB c) (in_box h)) c p.
Proof.
  set (c := CC (V3 (9 / 10) 0 0) qid vec0 qid (2 / 100)). set (h := V3 1 1 1).
  assert (I : in_b c = V3 (9 / 10) 0 0).
  { unfold in_b, c, to_object. cbn [c_posA c_posB c_ornB]. assert (qconj qid = qid) as -> by (unfold qconj, qid; cbn; f_equal; ring). rewrite rotate_qid. unfold vec0. vc. }
  assert (T : turned c) by (split; apply unit_qid).
  assert (IB : in_box h (in_b c)) by (rewrite I; unfold in_box, h; cbn [vx vy vz]; lra).
  destruct (C74_box_inside 1 h c) as (p & q & E & [Nq1 Nq2] & (C1 & C2 & U & C3 & C4) & D); [done|lra|unfold c; cbn [c_thr]; lra|unfold h; cbn [vx vy vz]; lra..|done|].
  exists 1, h, c, p. split; [done|]. split; [lra|]. split; [unfold c; cbn [c_thr]; lra|]. unfold h at 1 2 3. cbn [vx vy vz]. split_and!; try lra; [done|done|].
  intros (_ & _ & _ & C & _). rewrite D, C3, I in C. unfold h in C. cbn [vx vy vz] in C.
  assert (Q : GeoModel.dist (in_b c) q <= 1 / 10).
  { apply Rle_trans with (GeoModel.dist (in_b c) (V3 1 0 0)); [apply Nq2; unfold on_box, in_box, h; cbn [vx vy vz]; split; [lra|left; apply Rabs_R1]|].
    rewrite I. apply dist_le_r; [lra|]. unfold lsq, dot3, sub3; cbn [vx vy vz]. lra. }
  assert (F : dot3 (scl (- GeoModel.dist (in_b c) q - 1) (p_normal p)) (p_normal p) = dot3 (scl (- (1 + 0) - 1) (p_normal p)) (p_normal p)) by (rewrite I, C; done).
  rewrite !dot_scl_l in F. unfold unit3 in U. rewrite U in F. pose proof (len_nonneg (sub3 (in_b c) q)). unfold GeoModel.dist in *. lra.
Qed.
(** A sphere on the axis of an upright cylinder *)
Theorem C74_axis_refuted : ∃ ra hl a rb c p, turned c ∧ 0 < ra ∧ 0 < hl ∧ 0 < rb ∧ 0 <= c_thr c ∧ eps < 4 * hl * hl ∧
  cylinder_sphere ra hl a rb c = Ok [p] ∧
  ¬ contact_point (cylinder (c_posA c) (axis_vec_q a (c_ornA c)) ra hl) (ball (c_posB c) rb) c p.
Proof.
  pose proof eps_pos as E0. pose proof eps_small as E1.
  assert (C : ∃ p, cylinder_sphere 1 9 AY 1 home = Ok [p] ∧ p_normal p = V3 0 1 0 ∧ p_dist p = -2).
  { unfold cylinder_sphere, home. cbn [c_posA c_ornA c_posB c_ornB c_thr]. rewrite axis_qid.
    set (v0 := add3 vec0 (scl 9 (axis_vec AY))). set (v1 := sub3 vec0 (scl 9 (axis_vec AY))).
    assert (V0 : v0 = V3 0 9 0) by (unfold v0, axis_vec, ey, vec0; vec; ring). assert (V1 : v1 = V3 0 (-9) 0) by (unfold v1, axis_vec, ey, vec0; vec; ring).
    rewrite V0, V1. clear V0 V1 v0 v1. assert (dot3 (sub3 (V3 0 (-9) 0) (V3 0 9 0)) (sub3 (V3 0 (-9) 0) (V3 0 9 0)) = 324) as -> by (unfold dot3, sub3; cbn [vx vy vz]; ring).
    assert (rltb eps 324 = true) as -> by (apply rltb_true; lra). cbn [assert_ mbind res_bind].
    assert (dot3 (sub3 vec0 (V3 0 9 0)) (sub3 (V3 0 (-9) 0) (V3 0 9 0)) / 324 = 1 / 2) as -> by (unfold dot3, sub3, vec0; cbn [vx vy vz]; field).
    assert (rltb 0 (1 / 2) = true) as -> by (apply rltb_true; lra). assert (rltb (1 / 2) 1 = true) as -> by (apply rltb_true; lra). cbn [andb].
    assert (add3 (V3 0 9 0) (scl (1 / 2) (sub3 (V3 0 (-9) 0) (V3 0 9 0))) = vec0) as -> by (unfold vec0; vec; field).
    assert (lsq (sub3 vec0 vec0) = 0) as -> by (unfold lsq, dot3, sub3, vec0; cbn [vx vy vz]; ring).
    assert (rltb ((1 + 1 + 2 / 100) * (1 + 1 + 2 / 100)) 0 = false) as -> by (apply rltb_false; lra).
    assert (rltb eps 0 = false) as -> by (apply rltb_false; lra). rewrite sqrt_0. eexists. split; [done|]. split; [done|]. cbn [p_dist]. ring. }
  destruct C as (p & E & En & Ed). exists 1, 9, AY, 1, home, p. split; [apply turned_home|]. cbn [c_thr home]. split_and!; try lra; [done|].
  intros (_ & _ & _ & _ & G). rewrite En, Ed in G.
  assert (CA : cylinder vec0 (axis_vec_q AY qid) 1 9 (V3 0 (-9) 0)).
  { rewrite axis_qid. unfold cylinder. assert (dot3 (sub3 (V3 0 (-9) 0) vec0) (axis_vec AY) = -9) as -> by (unfold dot3, sub3, vec0, axis_vec, ey; cbn [vx vy vz]; ring).
    split; [lra|]. apply dist_le_r; [lra|]. unfold lsq, dot3, sub3, add3, scl, vec0, axis_vec, ey; cbn [vx vy vz]. lra. }
  specialize (G _ vec0 CA (ball_centre vec0 1 ltac:(lra))). revert G. unfold dot3, sub3, vec0; cbn [vx vy vz]. lra.
Qed.
Example C74_case : ∃ l, sphere_box 1 (V3 1 1 1) (CC (V3 2 0 0) qid vec0 qid (2 / 100)) = Ok l ∧
  contacts (ball (V3 2 0 0) 1) (placed vec0 qid (in_box (V3 1 1 1))) (CC (V3 2 0 0) qid vec0 qid (2 / 100)) l.
Proof.
  apply (C74_box_outside 1 (V3 1 1 1) (CC (V3 2 0 0) qid vec0 qid (2 / 100))); cbn [c_thr vx vy vz]; try lra; [split; apply unit_qid|].
  intros q [(Q1 & Q2 & Q3) _]. unfold in_b, to_object. cbn [c_posA c_posB c_ornB]. assert (qconj qid = qid) as -> by (unfold qconj, qid; cbn; f_equal; ring).
  rewrite rotate_qid. pose proof eps_small. cbn [vx vy vz] in *. unfold lsq, dot3, sub3, vec0; cbn [vx vy vz].
  pose proof (Rle_0_sqr (vy q)). pose proof (Rle_0_sqr (vz q)). unfold Rsqr in *. nra.
Qed.

(** * C75: the feature of a box in a direction *)

(** It is a corner, an edge or a face of the face that points most along the
    direction; it has the furthest point of the box, all of its corners are
    within the threshold of it; a corner is chosen only if the others of the
    face are not, a face only if all four are, and an edge has the two furthest. *)
Theorem C75_support h d thr : 0 <= vx h → 0 <= vy h → 0 <= vz h → 0 < thr →
  (∀ u, box_corner h u → - scalar_max < dot3 u d) →
  ∃ f p vs a s, box_support_feature h d thr = Ok (f, p) ∧ box_feature_vertices h f = Ok vs ∧ facing d a s ∧
    is_support (in_box h) d p ∧ (∀ v, v ∈ vs → face_corner h a s v ∧ p - thr < dot3 v d) ∧ (∃ v, v ∈ vs ∧ dot3 v d = p) ∧
    match f with
    | BVertex _ => ∃ v, vs = [v] ∧ ∀ u, face_corner h a s u → u ≠ v → dot3 u d <= p - thr
    | BEdge _ => ∃ v w, vs = [v; w] ∧ (∀ u, face_corner h a s u → u ≠ v → u ≠ w → dot3 u d <= dot3 v d ∧ dot3 u d <= dot3 w d) ∧
        ∃ u, face_corner h a s u ∧ dot3 u d <= p - thr
    | BFace _ => ∀ u, u ∈ vs ↔ face_corner h a s u
    end.
Proof. exact (support_feature_spec h d thr). Qed.
Lemma big_scalar : 100 < scalar_max.
Proof. pose proof scalar_max_big. assert (100 < 10 ^ 30) by lra. unfold scalar_max in *. lra. Qed.
Example C75_case : ∃ f p vs, box_support_feature (V3 1 1 1) (V3 1 0 0) (5 / 1000) = Ok (f, p) ∧ box_feature_vertices (V3 1 1 1) f = Ok vs ∧ p = 1.
Proof.
  destruct (C75_support (V3 1 1 1) (V3 1 0 0) (5 / 1000)) as (f & p & vs & a & s & E1 & E2 & _ & [S1 (x & Hx & S2)] & _); cbn [vx vy vz]; try lra.
  - intros u ([H|H] & _ & _); pose proof big_scalar; cbn [vx] in H; unfold dot3; cbn [vx vy vz]; rewrite H; lra.
  - exists f, p, vs. split; [done|]. split; [done|]. destruct Hx as (X1 & _ & _). specialize (S1 (V3 1 0 0)). unfold dot3, in_box in *; cbn [vx vy vz] in *. lra.
Qed.

(** * C76: compounds *)

(** A part at its place in the world is the part placed with the compound *)
Theorem C76_place n pos orn x : qlsq orn = 1 → qlsq (sn_orn n) = 1 →
  part_set (sn_shape n) (part_pos n pos orn) (part_orn n orn) x ↔ placed pos orn (node_set n) x.
Proof. exact (part_place n pos orn x). Qed.
(** The points of a compound are those of its parts, of all the parts near the
    box of the plane; the other parts are further than 0.02 from it. *)
Theorem C76_plane collide nodes boxB (B : v3 → Prop) c : turned c → (∀ n, n ∈ nodes → node_ok n) → encloses boxB B →
  (∀ n, n ∈ nodes → ∃ l, collide (sn_shape n) (part_ctx_a c n) = Ok l) →
  ∃ l, compound_plane collide nodes boxB c = Ok l ∧
    (∀ p, p ∈ l → ∃ n ln q, n ∈ nodes ∧ collide (sn_shape n) (part_ctx_a c n) = Ok ln ∧ q ∈ ln ∧ same_point c p (part_ctx_a c n) q) ∧
    (∀ n, n ∈ nodes → apart (placed (c_posA c) (c_ornA c) (node_set n)) B breaking ∨
       ∃ ln, collide (sn_shape n) (part_ctx_a c n) = Ok ln ∧ ∀ q, q ∈ ln → ∃ p, p ∈ l ∧ same_point c p (part_ctx_a c n) q).
Proof.
  intros Tc Hn HB Hc. unfold compound_plane. set (vis := (λ n, boxes_meet _ _) : snode → bool).
  destruct (collide_parts_ok vis collide nodes c Tc) as (l & El & I1 & I2); [intros; apply Hn; done|intros; apply Hc; done|].
  exists l. split; [done|]. split.
  - intros p Hp. destruct (I1 p Hp) as (n & ln & q & J1 & _ & J). exists n, ln, q. done.
  - intros n Hin. destruct (vis n) eqn:V.
    + right. destruct (Hc n Hin) as (ln & El'). exists ln. split; [done|]. intros q Hq. apply (I2 n ln q); done.
    + left. eapply left_out_plane; [done|apply Hn; done|exact HB|exact V].
Qed.
(** Against other shapes the parts that are left out have no point in common with B *)
Theorem C76_other collide nodes boxB (B : v3 → Prop) c : turned c → (∀ n, n ∈ nodes → node_ok n) → encloses boxB B →
  (∀ n, n ∈ nodes → ∃ l, collide (sn_shape n) (part_ctx_a c n) = Ok l) →
  ∃ l, compound_other collide nodes boxB c = Ok l ∧
    (∀ p, p ∈ l → ∃ n ln q, n ∈ nodes ∧ collide (sn_shape n) (part_ctx_a c n) = Ok ln ∧ q ∈ ln ∧ same_point c p (part_ctx_a c n) q) ∧
    (∀ n, n ∈ nodes → (∀ x, placed (c_posA c) (c_ornA c) (node_set n) x → ¬ B x) ∨
       ∃ ln, collide (sn_shape n) (part_ctx_a c n) = Ok ln ∧ ∀ q, q ∈ ln → ∃ p, p ∈ l ∧ same_point c p (part_ctx_a c n) q).
Proof.
  intros Tc Hn HB Hc. unfold compound_other. set (vis := (λ n, boxes_meet _ _) : snode → bool).
  destruct (collide_parts_ok vis collide nodes c Tc) as (l & El & I1 & I2); [intros; apply Hn; done|intros; apply Hc; done|].
  exists l. split; [done|]. split.
  - intros p Hp. destruct (I1 p Hp) as (n & ln & q & J1 & _ & J). exists n, ln, q. done.
  - intros n Hin. destruct (vis n) eqn:V.
    + right. destruct (Hc n Hin) as (ln & El'). exists ln. split; [done|]. intros q Hq. apply (I2 n ln q); done.
    + left. eapply left_out_other; [done|apply Hn; done|exact HB|exact V].
Qed.
Theorem C76_compounds collide nodesA nodesB boxB (B : v3 → Prop) c : turned c →
  (∀ n, n ∈ nodesA → node_ok n) → (∀ n, n ∈ nodesB → qlsq (sn_orn n) = 1) → encloses boxB B →
  (∀ n m, n ∈ nodesA → m ∈ nodesB → ∃ l, collide (sn_shape n) (sn_shape m) (part_ctx_a (part_ctx_b c m) n) = Ok l) →
  ∃ l, compound_compound collide nodesA nodesB boxB c = Ok l ∧
    (∀ p, p ∈ l → ∃ n m ln q, n ∈ nodesA ∧ m ∈ nodesB ∧
       collide (sn_shape n) (sn_shape m) (part_ctx_a (part_ctx_b c m) n) = Ok ln ∧ q ∈ ln ∧ same_point c p (part_ctx_a (part_ctx_b c m) n) q) ∧
    (∀ n m, n ∈ nodesA → m ∈ nodesB → (∀ x, placed (c_posA c) (c_ornA c) (node_set n) x → ¬ B x) ∨
       ∃ ln, collide (sn_shape n) (sn_shape m) (part_ctx_a (part_ctx_b c m) n) = Ok ln ∧
         ∀ q, q ∈ ln → ∃ p, p ∈ l ∧ same_point c p (part_ctx_a (part_ctx_b c m) n) q).
Proof.
  intros Tc HA HBn HB Hc. destruct (compound_compound_ok collide nodesA nodesB boxB c Tc (λ n Hn, proj1 (HA n Hn)) HBn Hc) as (l & El & I1 & I2).
  exists l. split; [done|]. split; [done|]. intros n m Hn Hm. destruct (pair_visited boxB c n) eqn:V.
  - right. destruct (Hc n m Hn Hm) as (ln & El'). exists ln. split; [done|]. intros q Hq. apply (I2 n m ln q); done.
  - left. eapply left_out_other; [done|apply HA; done|exact HB|exact V].
Qed.

Definition ball_part : snode := SNode (SSphere 1) vec0 qid.
Lemma ball_part_ok : node_ok ball_part.
Proof. split; [apply unit_qid|]. cbn. lra. Qed.
Definition against_ball (s : sshape) (c : cctx) : res (list cpoint) :=
  match s with SSphere r => Ok (sphere_sphere r 1 c) | _ => Ok [] end.
(** A sphere and a compound of one sphere, 0.01 apart: as a sphere it has a
    contact point within the threshold, as a compound it has none. *)
Theorem C76_threshold_refuted : ∃ n boxB c p, turned c ∧ node_ok n ∧ least_box boxB (ball (c_posB c) 1) ∧
  against_ball (sn_shape n) (part_ctx_a c n) = Ok [p] ∧ p_dist p <= c_thr c ∧ compound_other against_ball [n] boxB c = Ok [].
Proof.
  set (c := CC vec0 qid (V3 (201 / 100) 0 0) qid (2 / 100)). assert (T : turned c) by (split; apply unit_qid).
  assert (S : sphere_sphere 1 1 (part_ctx_a c ball_part) ≠ []).
  { unfold sphere_sphere, part_ctx_a, part_pos, c, ball_part. cbn [c_posA c_ornA c_posB c_ornB c_thr sn_pos]. rewrite to_world_qid.
    assert (rltb ((1 + 1 + 2 / 100) * (1 + 1 + 2 / 100)) (lsq (sub3 (add3 vec0 vec0) (V3 (201 / 100) 0 0))) = false) as ->; [|done].
    apply rltb_false. unfold lsq, dot3, sub3, add3, vec0; cbn [vx vy vz]. lra. }
  assert (L : ∃ p, sphere_sphere 1 1 (part_ctx_a c ball_part) = [p]).
  { unfold sphere_sphere in *. destruct (rltb _ (lsq _)); [done|eauto]. }
  destruct L as (p & Ep). exists ball_part, (part_aabb (SSphere 1) (V3 (201 / 100) 0 0) qid), c, p.
  split; [done|]. split; [apply ball_part_ok|]. split; [apply (part_aabb_ok (SSphere 1)); [apply unit_qid|cbn; lra]|]. split; [cbn; rewrite Ep; done|]. split.
  - assert (CT : contacts (ball (c_posA (part_ctx_a c ball_part)) 1) (ball (c_posB (part_ctx_a c ball_part)) 1) (part_ctx_a c ball_part) (sphere_sphere 1 1 (part_ctx_a c ball_part))).
    { apply sphere_sphere_ok; try lra; [|unfold part_ctx_a, c; cbn [c_thr]; lra|].
      - split; [|apply unit_qid]. apply unit_mul; apply unit_qid.
      - right. unfold part_ctx_a, part_pos, c, ball_part. cbn [c_posA c_ornA c_posB c_ornB c_thr sn_pos]. rewrite to_world_qid. unfold GeoModel.dist, len.
        replace (lsq _) with (201 / 100 * (201 / 100)) by (unfold lsq, dot3, sub3, add3, vec0; cbn [vx vy vz]; field). rewrite sqrt_square by lra. pose proof eps_small. lra. }
    destruct CT as [_ CT]. destruct (CT p) as [_ D]; [rewrite Ep; apply elem_of_list_singleton; done|exact D].
  - unfold compound_other, collide_parts. cbn [foldr].
    destruct (boxes_meet (node_aabb ball_part) _) eqn:M; [|done]. exfalso.
    apply andb_prop in M as [M _]. apply andb_prop in M as [M _]. apply andb_prop in M as [_ M]. apply rleb_true in M. revert M.
    set (b := part_aabb (SSphere 1) (V3 (201 / 100) 0 0) qid).
    assert (VB : valid b) by (unfold valid, le3, b; cbn; lra).
    destruct (aabb_to_object_ok b (c_posA c) (c_ornA c) unit_qid VB) as [_ LB]. specialize (LB b). destruct LB as [LB _].
    { intros x Hx. unfold c in Hx. cbn [c_posA c_ornA] in Hx. rewrite to_world_qid in Hx. replace (add3 vec0 x) with x in Hx by (unfold vec0; vec; ring). done. }
    destruct LB as [LB _]. revert LB. set (z := vx (bmin (aabb_to_object b (c_posA c) (c_ornA c)))). clearbody z. unfold b. cbn. lra.
Qed.
Example C76_case : ∃ l, compound_other against_ball [ball_part] (part_aabb (SSphere 1) (V3 1 0 0) qid) (CC vec0 qid (V3 1 0 0) qid (2 / 100)) = Ok l ∧ l ≠ [].
Proof.
  set (c := CC vec0 qid (V3 1 0 0) qid (2 / 100)). assert (T : turned c) by (split; apply unit_qid).
  destruct (C76_other against_ball [ball_part] (part_aabb (SSphere 1) (V3 1 0 0) qid) (ball (V3 1 0 0) 1) c T) as (l & El & _ & I2).
  - intros n Hn. apply elem_of_list_singleton in Hn as ->. apply ball_part_ok.
  - apply (part_aabb_ok (SSphere 1)); [apply unit_qid|cbn; lra].
  - intros n Hn. apply elem_of_list_singleton in Hn as ->. cbn. eauto.
  - exists l. split; [done|]. intros ->. destruct (I2 ball_part) as [N|(ln & E & K)]; [apply elem_of_list_singleton; done| |].
    + apply (N (V3 1 0 0)); [|apply ball_centre; lra]. exists (V3 1 0 0). split; [|unfold c; cbn [c_posA c_ornA]; rewrite to_world_qid; unfold vec0; vec; ring].
      unfold node_set, ball_part; cbn. apply dist_le_r; [lra|]. unfold lsq, dot3, sub3, vec0; cbn [vx vy vz]. lra.
    + cbn in E. injection E as <-. unfold sphere_sphere, part_ctx_a, part_pos, c in K. cbn [c_posA c_ornA c_posB c_ornB c_thr sn_pos ball_part] in K. rewrite to_world_qid in K.
      assert (Z : rltb ((1 + 1 + 2 / 100) * (1 + 1 + 2 / 100)) (lsq (sub3 (add3 vec0 vec0) (V3 1 0 0))) = false).
      { apply rltb_false. unfold lsq, dot3, sub3, add3, vec0; cbn [vx vy vz]. lra. }
      rewrite Z in K. edestruct K as (p & Hp & _); [apply elem_of_list_singleton; reflexivity|]. inversion Hp.
Qed.

Print Assumptions C72_nearest.
Print Assumptions C72_depth.
Print Assumptions C72_spheres.
Print Assumptions C72_capsule_sphere.
Print Assumptions C72_capsules.
Print Assumptions C73_sphere.
Print Assumptions C73_capsule.
Print Assumptions C73_cylinder.
Print Assumptions C73_box.
Print Assumptions C74_box_outside.
Print Assumptions C74_box_inside.
Print Assumptions C74_cylinder.
Print Assumptions C75_support.
Print Assumptions C76_plane.
Print Assumptions C76_other.
Print Assumptions C76_compounds.
