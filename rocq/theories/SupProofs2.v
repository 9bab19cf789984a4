From Verif Require Import Outcome BoxModel GeoModel RotSpec RotProofs NearModel NearSpec NearProofs RayModel RaySpec RayProofs RayProofs2 RayProofs3 SupModel SupSpec SupProofs.
From Coq Require Import Reals Lra Psatz.
Local Open Scope R_scope.

(** * Cylinders and discs *)
Definition planar (a : axis) (d : v3) : R := el (next a) d * el (next a) d + el (next (next a)) d * el (next (next a)) d.
Definition lcyl (r hl : R) (a : axis) (y : v3) : Prop := - hl <= el a y <= hl ∧ planar a y <= r * r.

Lemma planar_nonneg a d : 0 <= planar a d.
Proof. unfold planar. nra. Qed.
Lemma dot_el a x y : dot3 x y = el a x * el a y + (el (next a) x * el (next a) y + el (next (next a)) x * el (next (next a)) y).
Proof. destruct a; unfold dot3; simpl; ring. Qed.
Lemma lsq_planar a x : lsq x = el a x * el a x + planar a x.
Proof. unfold lsq, planar. rewrite (dot_el a). ring. Qed.
Lemma with_el_0 a x y z : el a (with_el a x y z) = x.
Proof. destruct a; done. Qed.
Lemma with_el_1 a x y z : el (next a) (with_el a x y z) = y.
Proof. destruct a; done. Qed.
Lemma with_el_2 a x y z : el (next (next a)) (with_el a x y z) = z.
Proof. destruct a; done. Qed.
Lemma el_dot a x : el a x = dot3 x (axis_vec a).
Proof. destruct a; unfold dot3, axis_vec, ex, ey, ez; simpl; ring. Qed.
Lemma el_neg a x : el a (neg3 x) = - el a x.
Proof. destruct a; done. Qed.

Lemma placed_cylinder r hl a pos orn x : qlsq orn = 1 → 0 <= r →
  placed pos orn (lcyl r hl a) x ↔ cylinder pos (axis_vec_q a orn) r hl x.
Proof.
  intros Hq Hr. rewrite placed_iff, cylinder_iff by (try apply axis_unit; done).
  assert (E : el a (to_object x pos orn) = axial pos (axis_vec_q a orn) x).
  { rewrite el_dot. unfold to_object. rewrite object_coord by done. done. }
  assert (E2 : lsq (to_object x pos orn) = lsq (sub3 x pos)).
  { unfold lsq, to_object. rewrite rotate_dot by (apply unit_conj; done). done. }
  pose proof (lsq_planar a (to_object x pos orn)) as P. rewrite E2, E in P.
  unfold lcyl, rad2. rewrite E. split; intros [H1 H2]; (split; [done|]); lra.
Qed.

(** Cauchy in the plane *)
Lemma planar_cauchy a x d r : 0 <= r → planar a x <= r * r →
  el (next a) x * el (next a) d + el (next (next a)) x * el (next (next a)) d <= r * sqrt (planar a d).
Proof.
  intros Hr Hx. pose proof (planar_nonneg a d) as Hd. pose proof (sqrt_pos (planar a d)) as Hs. pose proof (sqrt_sqrt _ Hd) as Hss.
  set (s := sqrt (planar a d)) in *. unfold planar in *.
  set (x0 := el (next a) x) in *. set (x1 := el (next (next a)) x) in *. set (d0 := el (next a) d) in *. set (d1 := el (next (next a)) d) in *.
  clearbody s x0 x1 d0 d1. pose proof (Rle_0_sqr (x0 * d1 - x1 * d0)) as Q. unfold Rsqr in Q.
  assert ((x0 * d0 + x1 * d1) * (x0 * d0 + x1 * d1) <= (r * s) * (r * s)).
  { replace ((r * s) * (r * s)) with (r * r * (s * s)) by ring. rewrite Hss.
    apply Rle_trans with ((x0 * x0 + x1 * x1) * (d0 * d0 + d1 * d1)); [nra|]. apply Rmult_le_compat_r; [nra|done]. }
  assert (0 <= r * s) by nra. nra.
Qed.
Lemma lcyl_le r hl a d y : 0 <= r → lcyl r hl a y → dot3 y d <= hl * Rabs (el a d) + r * sqrt (planar a d).
Proof.
  intros Hr [H1 H2]. rewrite (dot_el a). pose proof (planar_cauchy a y d r Hr H2). pose proof (abs_bound hl (el a y) (el a d) H1). lra.
Qed.
Lemma cyl_sel hl d : (if rltb d 0 then - hl else hl) * d = hl * Rabs d.
Proof.
  destruct (rltb d 0) eqn:E.
  - apply rltb_true in E. rewrite Rabs_left by lra. ring.
  - apply rltb_false in E. rewrite Rabs_right by lra. ring.
Qed.
Lemma cylinder_point_in r hl a d : 0 <= r → 0 <= hl → lcyl r hl a (cylinder_point r hl a d).
Proof.
  intros Hr Hh. unfold cylinder_point. fold (planar a d).
  assert (S : - hl <= (if rltb (el a d) 0 then - hl else hl) <= hl) by (destruct (rltb (el a d) 0); lra).
  destruct (rltb eps (planar a d)) eqn:E.
  - apply rltb_true in E. pose proof eps_pos. pose proof (sqrt_lt_R0 (planar a d)) as Q. pose proof (sqrt_sqrt (planar a d)) as QQ.
    split; [rewrite with_el_0; done|]. unfold planar at 1. rewrite with_el_1, with_el_2.
    right. replace (el (next a) d * (r / sqrt (planar a d)) * (el (next a) d * (r / sqrt (planar a d))) + el (next (next a)) d * (r / sqrt (planar a d)) * (el (next (next a)) d * (r / sqrt (planar a d))))
      with (planar a d * (r * r) / (sqrt (planar a d) * sqrt (planar a d))) by (unfold planar at 1; field; apply Rgt_not_eq, Q; lra).
    rewrite QQ by lra. field. lra.
  - split; [rewrite with_el_0; done|]. unfold planar. rewrite with_el_1, with_el_2. lra.
Qed.
(** Beyond the tolerance the support point is exact *)
Lemma cylinder_point_val r hl a d : eps < planar a d →
  dot3 (cylinder_point r hl a d) d = hl * Rabs (el a d) + r * sqrt (planar a d).
Proof.
  intros E. unfold cylinder_point. fold (planar a d). assert (rltb eps (planar a d) = true) as -> by (apply rltb_true; done).
  pose proof eps_pos. assert (0 < sqrt (planar a d)) as Q by (apply sqrt_lt_R0; lra). assert (QQ : sqrt (planar a d) * sqrt (planar a d) = planar a d) by (apply sqrt_sqrt; lra).
  rewrite (dot_el a), with_el_0, with_el_1, with_el_2, cyl_sel. f_equal.
  replace (el (next a) d * (r / sqrt (planar a d)) * el (next a) d + el (next (next a)) d * (r / sqrt (planar a d)) * el (next (next a)) d)
    with (r * planar a d / sqrt (planar a d)) by (unfold planar at 1; field; lra).
  rewrite <- QQ at 1. field. lra.
Qed.
(** Within it, it falls short of the true value by at most [2 r sqrt planar] *)
Lemma cylinder_point_near r hl a d : 0 <= r → planar a d <= eps →
  hl * Rabs (el a d) + r * sqrt (planar a d) - 2 * r * sqrt (planar a d) <= dot3 (cylinder_point r hl a d) d.
Proof.
  intros Hr E. unfold cylinder_point. fold (planar a d). assert (rltb eps (planar a d) = false) as -> by (apply rltb_false; done).
  rewrite (dot_el a), with_el_0, with_el_1, with_el_2, cyl_sel.
  pose proof (planar_nonneg a d) as Hp. pose proof (sqrt_pos (planar a d)). pose proof (sqrt_sqrt _ Hp) as QQ.
  assert (- sqrt (planar a d) <= el (next a) d).
  { set (s := sqrt _) in *. unfold planar in QQ. clearbody s. destruct (Rle_dec (- s) (el (next a) d)); [done|exfalso]. nra. }
  nra.
Qed.
Lemma cylinder_point_val' r hl a d : 0 <= r → 0 <= hl → planar a d = 0 ∨ eps < planar a d →
  dot3 (cylinder_point r hl a d) d = hl * Rabs (el a d) + r * sqrt (planar a d).
Proof.
  intros Hr Hh [E|E]; [|apply cylinder_point_val; done].
  pose proof (cylinder_point_near r hl a d Hr) as N. rewrite E, sqrt_0 in *. pose proof eps_pos.
  pose proof (lcyl_le r hl a d _ Hr (cylinder_point_in r hl a d Hr Hh)) as L. rewrite E, sqrt_0 in L. lra.
Qed.
Lemma lcyl_furthest r hl a d : 0 <= r → 0 <= hl → planar a d = 0 ∨ eps < planar a d →
  furthest (lcyl r hl a) d (cylinder_point r hl a d).
Proof.
  intros Hr Hh E. split; [apply cylinder_point_in; done|]. intros y Hy. rewrite cylinder_point_val' by done. apply lcyl_le; done.
Qed.
(** In terms of the axis in the world *)
Lemma planar_off a orn d : qlsq orn = 1 → planar a (rotate (qconj orn) d) = off_axis (axis_vec_q a orn) d.
Proof.
  intros Hq. pose proof (lsq_planar a (rotate (qconj orn) d)) as P. rewrite el_dot, object_coord in P by done.
  unfold lsq in P at 1. rewrite rotate_dot in P by (apply unit_conj; done). fold (lsq d) in P. unfold off_axis. lra.
Qed.
Lemma cylinder_furthest r hl a pos orn d : qlsq orn = 1 → 0 <= r → 0 <= hl →
  off_axis (axis_vec_q a orn) d = 0 ∨ eps < off_axis (axis_vec_q a orn) d →
  furthest (cylinder pos (axis_vec_q a orn) r hl) d (cylinder_point_at r hl a pos orn d).
Proof.
  intros Hq Hr Hh E. rewrite <- planar_off in E by done.
  pose proof (placed_furthest pos orn _ d _ Hq (lcyl_furthest r hl a _ Hr Hh E)) as [F1 F2]. split.
  - apply placed_cylinder in F1; done.
  - intros y Hy. apply placed_cylinder in Hy; [|done..]. apply F2. done.
Qed.
Lemma cylinder_point_member r hl a pos orn d : qlsq orn = 1 → 0 <= r → 0 <= hl →
  cylinder pos (axis_vec_q a orn) r hl (cylinder_point_at r hl a pos orn d).
Proof.
  intros Hq Hr Hh. apply placed_cylinder; [done..|]. eexists. split; [apply (cylinder_point_in r hl a (rotate (qconj orn) d)); done|]. done.
Qed.
Lemma cylinder_short r hl a pos orn d x : qlsq orn = 1 → 0 <= r → 0 <= hl → off_axis (axis_vec_q a orn) d <= eps →
  cylinder pos (axis_vec_q a orn) r hl x →
  dot3 x d <= dot3 (cylinder_point_at r hl a pos orn d) d + 2 * r * sqrt (off_axis (axis_vec_q a orn) d).
Proof.
  intros Hq Hr Hh E Hx. apply placed_cylinder in Hx as (y & Hy & ->); [|done..]. rewrite <- planar_off in * by done.
  change (cylinder_point_at r hl a pos orn d) with (to_world (cylinder_point r hl a (rotate (qconj orn) d)) pos orn).
  rewrite !world_dot by done.
  pose proof (cylinder_point_near r hl a _ Hr E). pose proof (lcyl_le r hl a (rotate (qconj orn) d) y Hr Hy). lra.
Qed.
Lemma cylinder_projection_eq r hl a pos orn d : qlsq orn = 1 →
  cylinder_projection r hl a pos orn d = dot3 (cylinder_point_at r hl a pos orn d) d.
Proof.
  intros Hq. unfold cylinder_projection.
  change (cylinder_point_at r hl a pos orn d) with (to_world (cylinder_point r hl a (rotate (qconj orn) d)) pos orn).
  rewrite world_dot by done. done.
Qed.
Lemma lcyl_sym r hl a x : lcyl r hl a x → lcyl r hl a (neg3 x).
Proof. unfold lcyl, planar. rewrite !el_neg. intros. split; lra. Qed.

Lemma cylinder_aabb_ok r hl a pos orn : qlsq orn = 1 → 0 <= r → 0 <= hl → axes_clear (axis_vec_q a orn) →
  least_box (cylinder_aabb r hl a pos orn) (cylinder pos (axis_vec_q a orn) r hl).
Proof.
  intros Hq Hr Hh C. unfold cylinder_aabb.
  assert (F : ∀ e, e ∈ [ex; ey; ez] → is_support (cylinder pos (axis_vec_q a orn) r hl) e (dot3 pos e + dot3 (cylinder_point_q r hl a orn e) e)).
  { intros e He. rewrite <- dot_add_l. apply furthest_support. apply cylinder_furthest; try done. apply C; done. }
  apply three_supports.
  - intros x Hx. apply placed_cylinder in Hx; [|done..]. apply placed_cylinder; [done..|]. apply placed_sym; [|done]. intros y. apply lcyl_sym.
  - specialize (F ex). rewrite !dot_ex in F. apply F. set_solver.
  - specialize (F ey). rewrite !dot_ey in F. apply F. set_solver.
  - specialize (F ez). rewrite !dot_ez in F. apply F. set_solver.
Qed.
(** In general the box misses nothing of the cylinder by more than a margin *)
Lemma cylinder_reach r hl a pos orn d x : qlsq orn = 1 → 0 <= r → 0 <= hl → 
  cylinder pos (axis_vec_q a orn) r hl x →
  dot3 x d <= dot3 pos d + dot3 (cylinder_point_q r hl a orn d) d + 2 * r * sqrt eps.
Proof.
  intros Hq Hr Hh Hx. pose proof (sqrt_pos eps). rewrite <- dot_add_l. fold (cylinder_point_at r hl a pos orn d).
  destruct (Rle_dec (off_axis (axis_vec_q a orn) d) eps) as [L|L].
  - pose proof (cylinder_short r hl a pos orn d x Hq Hr Hh L Hx). pose proof (sqrt_le_1_alt _ _ L). nra.
  - pose proof (cylinder_furthest r hl a pos orn d Hq Hr Hh) as F. destruct F as [_ F]; [right; lra|]. specialize (F x Hx). nra.
Qed.
Lemma cylinder_aabb_near r hl a pos orn : qlsq orn = 1 → 0 <= r → 0 <= hl →
  encloses (grown (2 * r * sqrt eps) (cylinder_aabb r hl a pos orn)) (cylinder pos (axis_vec_q a orn) r hl).
Proof.
  intros Hq Hr Hh x Hx.
  assert (Hx' : cylinder pos (axis_vec_q a orn) r hl (sub3 (scl 2 pos) x)).
  { apply placed_cylinder in Hx; [|done..]. apply placed_cylinder; [done..|]. apply placed_sym; [|done]. intros y. apply lcyl_sym. }
  pose proof (λ d, cylinder_reach r hl a pos orn d x Hq Hr Hh Hx) as A.
  pose proof (λ d, cylinder_reach r hl a pos orn d _ Hq Hr Hh Hx') as B.
  pose proof (A ex) as A1. pose proof (A ey) as A2. pose proof (A ez) as A3.
  pose proof (B ex) as B1. pose proof (B ey) as B2. pose proof (B ez) as B3.
  rewrite !dot_sub_l, !dot_scl_l in *. rewrite ?dot_ex, ?dot_ey, ?dot_ez in *.
  unfold in_aabb, le3, grown, cylinder_aabb. generalize dependent (cylinder_point_q r hl a orn). clear -x pos. intros f A B; intros.
  unfold sub3, add3; cbn [vx vy vz bmin bmax]. lra.
Qed.

(** Discs *)
Lemma disc_lcyl r a pos orn x : qlsq orn = 1 → 0 <= r →
  on_disc pos (axis_vec_q a orn) r x ↔ placed pos orn (lcyl r 0 a) x.
Proof.
  intros Hq Hr. rewrite placed_cylinder by done. unfold on_disc, cylinder. split.
  - intros [H1 H2]. rewrite H1. split; [lra|]. replace (add3 pos (scl 0 (axis_vec_q a orn))) with pos; [done|].
    destruct pos, (axis_vec_q a orn); unfold add3, scl; simpl; f_equal; ring.
  - intros [H1 H2]. assert (H : dot3 (sub3 x pos) (axis_vec_q a orn) = 0) by lra. split; [done|]. rewrite H in H2.
    replace (add3 pos (scl 0 (axis_vec_q a orn))) with pos in H2; [done|].
    destruct pos, (axis_vec_q a orn); unfold add3, scl; simpl; f_equal; ring.
Qed.
Lemma circle_point_eq pos orn r a d : circle_point pos orn r a d = cylinder_point_at r 0 a pos orn d.
Proof.
  unfold circle_point, cylinder_point_at, cylinder_point_q, cylinder_point. rewrite Ropp_0.
  replace (if rltb (el a (rotate (qconj orn) d)) 0 then 0 else 0) with 0 by (destruct (rltb _ 0); done). done.
Qed.
Lemma circle_furthest pos orn r a d : qlsq orn = 1 → 0 <= r →
  off_axis (axis_vec_q a orn) d = 0 ∨ eps < off_axis (axis_vec_q a orn) d →
  furthest (on_disc pos (axis_vec_q a orn) r) d (circle_point pos orn r a d).
Proof.
  intros Hq Hr E. rewrite circle_point_eq. destruct (cylinder_furthest r 0 a pos orn d Hq Hr) as [F1 F2]; [lra|done|]. split.
  - apply disc_lcyl; [done..|]. apply placed_cylinder; done.
  - intros y Hy. apply F2. apply placed_cylinder; [done..|]. apply disc_lcyl; done.
Qed.
Lemma circle_short pos orn r a d : qlsq orn = 1 → 0 <= r →
  on_disc pos (axis_vec_q a orn) r (circle_point pos orn r a d) ∧
  ∀ x, on_disc pos (axis_vec_q a orn) r x → dot3 x d <= dot3 (circle_point pos orn r a d) d + 2 * r * sqrt eps.
Proof.
  intros Hq Hr. rewrite circle_point_eq. split.
  - apply disc_lcyl; [done..|]. apply placed_cylinder; [done..|]. apply cylinder_point_member; lra || done.
  - intros x Hx. apply disc_lcyl, placed_cylinder in Hx; [|done..]. unfold cylinder_point_at. rewrite dot_add_l.
    apply cylinder_reach; try done. lra.
Qed.
