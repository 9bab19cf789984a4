From Verif Require Import Outcome BoxModel GeoModel RotSpec RotProofs NearModel NearSpec NearProofs RayModel RaySpec RayProofs RayProofs2 RayProofs3 SupModel SupSpec.
From Coq Require Import Reals Lra Psatz.
Local Open Scope R_scope.

Lemma dot_ex x : dot3 x ex = vx x.
Proof. unfold dot3, ex; simpl. ring. Qed.
Lemma dot_ey x : dot3 x ey = vy x.
Proof. unfold dot3, ey; simpl. ring. Qed.
Lemma dot_ez x : dot3 x ez = vz x.
Proof. unfold dot3, ez; simpl. ring. Qed.
Lemma dot_neg x d : dot3 x (neg3 d) = - dot3 x d.
Proof. unfold dot3, neg3; simpl. ring. Qed.
Lemma dot_add_l x y d : dot3 (add3 x y) d = dot3 x d + dot3 y d.
Proof. unfold dot3, add3; simpl. ring. Qed.
Lemma dot_sub_l x y d : dot3 (sub3 x y) d = dot3 x d - dot3 y d.
Proof. unfold dot3, sub3; simpl. ring. Qed.
Lemma dot_scl_l s x d : dot3 (scl s x) d = s * dot3 x d.
Proof. unfold dot3, scl; simpl. ring. Qed.
Lemma dot_scl_r s x d : dot3 x (scl s d) = s * dot3 x d.
Proof. unfold dot3, scl; simpl. ring. Qed.
Lemma dot_comm x d : dot3 x d = dot3 d x.
Proof. unfold dot3; simpl. ring. Qed.

(** A least box from six support values *)
Lemma six_supports S b :
  is_support S ex (vx (bmax b)) → is_support S (neg3 ex) (- vx (bmin b)) →
  is_support S ey (vy (bmax b)) → is_support S (neg3 ey) (- vy (bmin b)) →
  is_support S ez (vz (bmax b)) → is_support S (neg3 ez) (- vz (bmin b)) → least_box b S.
Proof.
  intros [A1 (x1 & S1 & E1)] [A2 (x2 & S2 & E2)] [A3 (x3 & S3 & E3)] [A4 (x4 & S4 & E4)] [A5 (x5 & S5 & E5)] [A6 (x6 & S6 & E6)].
  rewrite ?dot_neg, ?dot_ex, ?dot_ey, ?dot_ez in *. split.
  - intros x Hx. specialize (A1 x Hx). specialize (A2 x Hx). specialize (A3 x Hx). specialize (A4 x Hx). specialize (A5 x Hx). specialize (A6 x Hx).
    rewrite ?dot_neg, ?dot_ex, ?dot_ey, ?dot_ez in *. unfold in_aabb, le3. lra.
  - intros c Hc. pose proof (Hc x1 S1) as C1. pose proof (Hc x2 S2) as C2. pose proof (Hc x3 S3) as C3.
    pose proof (Hc x4 S4) as C4. pose proof (Hc x5 S5) as C5. pose proof (Hc x6 S6) as C6.
    unfold in_aabb, le3 in *. lra.
Qed.
(** ... and from three if the set is symmetric about a point *)
Lemma three_supports (S : v3 → Prop) c v :
  (∀ x, S x → S (sub3 (scl 2 c) x)) →
  is_support S ex (vx c + vx v) → is_support S ey (vy c + vy v) → is_support S ez (vz c + vz v) →
  least_box (Box (sub3 c v) (add3 c v)) S.
Proof.
  intros Sym.
  assert (F : ∀ d p, is_support S d p → is_support S (neg3 d) (p - 2 * dot3 c d)).
  { intros d p [A (x & Hx & E)]. split.
    - intros y Hy. apply Sym in Hy. specialize (A _ Hy). rewrite dot_sub_l, dot_scl_l in A. rewrite dot_neg. lra.
    - exists (sub3 (scl 2 c) x). split; [auto|]. rewrite dot_neg, dot_sub_l, dot_scl_l. lra. }
  intros Hx Hy Hz. pose proof (F _ _ Hx) as Fx. pose proof (F _ _ Hy) as Fy. pose proof (F _ _ Hz) as Fz.
  rewrite dot_ex in Fx. rewrite dot_ey in Fy. rewrite dot_ez in Fz.
  apply six_supports; simpl; try done.
  - replace (- (vx c - vx v)) with (vx c + vx v - 2 * vx c) by ring. done.
  - replace (- (vy c - vy v)) with (vy c + vy v - 2 * vy c) by ring. done.
  - replace (- (vz c - vz v)) with (vz c + vz v - 2 * vz c) by ring. done.
Qed.

Lemma furthest_support S d x : furthest S d x → is_support S d (dot3 x d).
Proof. intros [H1 H2]. split; [done|]. exists x. done. Qed.

Lemma is_support_ext S T d p q : (∀ x, S x ↔ T x) → p = q → is_support S d p → is_support T d q.
Proof. intros H -> [A (x & Hx & E)]. split; [intros y Hy; apply A, H; done|]. exists x. split; [apply H; done|done]. Qed.

(** * Boxes *)
Lemma box_point_in h d : 0 <= vx h → 0 <= vy h → 0 <= vz h → in_box h (support_point_box h d).
Proof. intros. unfold in_box, support_point_box; simpl. destruct (rltb 0 (vx d)), (rltb 0 (vy d)), (rltb 0 (vz d)); lra. Qed.
Lemma sel_abs h d : (if rltb 0 d then h else - h) * d = h * Rabs d.
Proof.
  destruct rltb eqn:E.
  - apply rltb_true in E. rewrite Rabs_right by lra. ring.
  - apply rltb_false in E. rewrite Rabs_left1 by lra. ring.
Qed.
Lemma box_point_val h d : dot3 (support_point_box h d) d = vx h * Rabs (vx d) + vy h * Rabs (vy d) + vz h * Rabs (vz d).
Proof. unfold dot3, support_point_box; simpl. rewrite !sel_abs. ring. Qed.
Lemma abs_bound h x d : - h <= x <= h → x * d <= h * Rabs d.
Proof. intros. unfold Rabs. destruct Rcase_abs; nra. Qed.
Lemma box_furthest h d : 0 <= vx h → 0 <= vy h → 0 <= vz h → furthest (in_box h) d (support_point_box h d).
Proof.
  intros. split; [apply box_point_in; done|]. intros y (B1 & B2 & B3). rewrite box_point_val. unfold dot3.
  pose proof (abs_bound _ _ (vx d) B1). pose proof (abs_bound _ _ (vy d) B2). pose proof (abs_bound _ _ (vz d) B3). lra.
Qed.

(** Placed sets *)
Lemma world_dot y pos orn d : qlsq orn = 1 → dot3 (to_world y pos orn) d = dot3 pos d + dot3 y (rotate (qconj orn) d).
Proof.
  intros Hq. unfold to_world. rewrite dot_add_l. f_equal.
  rewrite <- (rotate_dot orn y (rotate (qconj orn) d)) by done. rewrite conj_inv' by done. done.
Qed.
Lemma placed_furthest pos orn S d x : qlsq orn = 1 →
  furthest S (rotate (qconj orn) d) x → furthest (placed pos orn S) d (to_world x pos orn).
Proof.
  intros Hq [H1 H2]. split; [exists x; done|]. intros y (z & Hz & ->). rewrite !world_dot by done. specialize (H2 z Hz). lra.
Qed.
Lemma placed_support pos orn S d p : qlsq orn = 1 →
  is_support S (rotate (qconj orn) d) p → is_support (placed pos orn S) d (dot3 pos d + p).
Proof.
  intros Hq [A (x & Hx & E)]. split.
  - intros y (z & Hz & ->). rewrite world_dot by done. specialize (A z Hz). lra.
  - exists (to_world x pos orn). split; [exists x; done|]. rewrite world_dot by done. lra.
Qed.
Lemma placed_sym pos orn (S : v3 → Prop) : (∀ x, S x → S (neg3 x)) → ∀ x, placed pos orn S x → placed pos orn S (sub3 (scl 2 pos) x).
Proof.
  intros Sym x (y & Hy & ->). exists (neg3 y). split; [auto|]. unfold to_world. rewrite rotate_neg.
  destruct pos, (rotate orn y). unfold sub3, scl, add3, neg3; simpl. f_equal; ring.
Qed.
Lemma box_sym h x : in_box h x → in_box h (neg3 x).
Proof. unfold in_box, neg3; simpl. lra. Qed.

Lemma box_row_ok row h c :
  box_row row h c = (c - (Rabs (vx row * vx h) + Rabs (vy row * vy h) + Rabs (vz row * vz h)),
                     c + (Rabs (vx row * vx h) + Rabs (vy row * vy h) + Rabs (vz row * vz h))).
Proof.
  assert (F : ∀ e lo hi, (if rltb (- e) (- - e) then (lo + - e, hi + - - e) else (lo + - - e, hi + - e)) = (lo - Rabs e, hi + Rabs e)).
  { intros e lo hi. destruct rltb eqn:E.
    - apply rltb_true in E. rewrite Rabs_right by lra. f_equal; ring.
    - apply rltb_false in E. rewrite Rabs_left1 by lra. f_equal; ring. }
  unfold box_row. rewrite <- !Ropp_mult_distr_r. rewrite !F. f_equal; ring.
Qed.
Lemma abs_scale h d : 0 <= h → Rabs (d * h) = h * Rabs d.
Proof. intros. rewrite Rabs_mult, (Rabs_right h) by lra. ring. Qed.
Lemma box_aabb_ok h pos orn : qlsq orn = 1 → 0 <= vx h → 0 <= vy h → 0 <= vz h →
  least_box (box_aabb h pos orn) (placed pos orn (in_box h)).
Proof.
  intros Hq Hx Hy Hz. unfold box_aabb. rewrite !box_row_ok. simpl fst. simpl snd.
  set (v := V3 (vx h * Rabs (vx (r0 (to_matrix orn))) + vy h * Rabs (vy (r0 (to_matrix orn))) + vz h * Rabs (vz (r0 (to_matrix orn))))
               (vx h * Rabs (vx (r1 (to_matrix orn))) + vy h * Rabs (vy (r1 (to_matrix orn))) + vz h * Rabs (vz (r1 (to_matrix orn))))
               (vx h * Rabs (vx (r2 (to_matrix orn))) + vy h * Rabs (vy (r2 (to_matrix orn))) + vz h * Rabs (vz (r2 (to_matrix orn))))).
  rewrite !abs_scale by done.
  match goal with |- least_box ?b _ => replace b with (Box (sub3 pos v) (add3 pos v)) by (unfold v, sub3, add3; simpl; done) end.
  assert (R : ∀ e, rotate (qconj orn) e = V3 (dot3 e (rotate orn ex)) (dot3 e (rotate orn ey)) (dot3 e (rotate orn ez))).
  { intros e. rewrite <- (rotate_dot (qconj orn) e (rotate orn ex)), <- (rotate_dot (qconj orn) e (rotate orn ey)), <- (rotate_dot (qconj orn) e (rotate orn ez)) by (apply unit_conj; done).
    rewrite !conj_inv by done. rewrite dot_ex, dot_ey, dot_ez. destruct (rotate (qconj orn) e). done. }
  assert (M : ∀ e, rotate orn e = mvec (to_matrix orn) e) by (intros; rewrite to_matrix_rotate by done; done).
  assert (Ex : rotate (qconj orn) ex = r0 (to_matrix orn)).
  { rewrite R, !M. destruct (to_matrix orn) as [[] [] []]. unfold mvec, dot3, ex, ey, ez; simpl. f_equal; ring. }
  assert (Ey : rotate (qconj orn) ey = r1 (to_matrix orn)).
  { rewrite R, !M. destruct (to_matrix orn) as [[] [] []]. unfold mvec, dot3, ex, ey, ez; simpl. f_equal; ring. }
  assert (Ez : rotate (qconj orn) ez = r2 (to_matrix orn)).
  { rewrite R, !M. destruct (to_matrix orn) as [[] [] []]. unfold mvec, dot3, ex, ey, ez; simpl. f_equal; ring. }
  pose proof (λ d, furthest_support _ _ _ (box_furthest h d Hx Hy Hz)) as F. setoid_rewrite box_point_val in F.
  apply three_supports; [apply placed_sym; intros x; apply box_sym| | | ].
  - rewrite <- (dot_ex pos). apply placed_support; [done|]. rewrite Ex. apply F.
  - rewrite <- (dot_ey pos). apply placed_support; [done|]. rewrite Ey. apply F.
  - rewrite <- (dot_ez pos). apply placed_support; [done|]. rewrite Ez. apply F.
Qed.

(** * Balls and capsules *)
Lemma dot_le_len x y d : unit3 d → dot3 x d <= dot3 y d + GeoModel.dist x y.
Proof.
  intros Hd. assert (Hd' : lsq d = 1) by exact Hd. unfold GeoModel.dist. set (w := sub3 x y). assert (E : dot3 w d = dot3 x d - dot3 y d) by apply dot_sub_l.
  enough (dot3 w d <= len w) by lra. clearbody w. clear E. pose proof (len_sq w). pose proof (len_nonneg w). pose proof (lsq_nonneg (cross3 w d)).
  assert (lsq (cross3 w d) = lsq w * lsq d - dot3 w d * dot3 w d) by (unfold lsq, dot3, cross3; simpl; ring). rewrite Hd' in *. nra.
Qed.
Lemma out_by r y d : unit3 d → 0 <= r → GeoModel.dist (add3 y (scl r d)) y = r ∧ dot3 (add3 y (scl r d)) d = dot3 y d + r.
Proof.
  intros Hd Hr. split.
  - unfold GeoModel.dist. replace (sub3 (add3 y (scl r d)) y) with (scl r d) by (destruct y, d; unfold sub3, add3, scl; simpl; f_equal; ring).
    unfold len. replace (lsq (scl r d)) with (r * r * lsq d) by (destruct d; unfold lsq, dot3, scl; simpl; ring).
    assert (lsq d = 1) as -> by exact Hd. rewrite Rmult_1_r. apply sqrt_square. done.
  - rewrite dot_add_l, dot_scl_l. replace (dot3 d d) with 1 by (symmetry; exact Hd). ring.
Qed.
Lemma ball_support c r d : unit3 d → 0 <= r → is_support (ball c r) d (dot3 c d + r).
Proof.
  intros Hd Hr. split.
  - intros x Hx. unfold ball in Hx. pose proof (dot_le_len x c d Hd). lra.
  - exists (add3 c (scl r d)). destruct (out_by r c d Hd Hr) as [E1 E2]. split; [unfold ball; lra|done].
Qed.
Lemma capsule_support v0 v1 r d : unit3 d → 0 <= r → is_support (capsule v0 v1 r) d (capsule_projection v0 v1 r d).
Proof.
  intros Hd Hr. unfold capsule_projection. split.
  - intros x (y & (t & Ht & ->) & Hx). pose proof (dot_le_len x (add3 v0 (scl t (sub3 v1 v0))) d Hd) as A.
    rewrite dot_add_l, dot_scl_l, dot_sub_l in A. pose proof (Rmax_l (dot3 v0 d) (dot3 v1 d)). pose proof (Rmax_r (dot3 v0 d) (dot3 v1 d)). nra.
  - destruct (Rle_dec (dot3 v0 d) (dot3 v1 d)) as [L|L].
    + destruct (out_by r v1 d Hd Hr) as [E1 E2]. exists (add3 v1 (scl r d)). split.
      * exists v1. split; [|lra]. exists 1. split; [lra|]. destruct v0, v1; unfold add3, scl, sub3; simpl; f_equal; ring.
      * rewrite Rmax_right by done. done.
    + destruct (out_by r v0 d Hd Hr) as [E1 E2]. exists (add3 v0 (scl r d)). split.
      * exists v0. split; [|lra]. exists 0. split; [lra|]. destruct v0, v1; unfold add3, scl, sub3; simpl; f_equal; ring.
      * rewrite Rmax_left by lra. done.
Qed.
Lemma unit_ex : unit3 ex. Proof. unfold unit3, lsq, dot3, ex; simpl. ring. Qed.
Lemma unit_ey : unit3 ey. Proof. unfold unit3, lsq, dot3, ey; simpl. ring. Qed.
Lemma unit_ez : unit3 ez. Proof. unfold unit3, lsq, dot3, ez; simpl. ring. Qed.
Lemma unit_neg d : unit3 d → unit3 (neg3 d).
Proof. unfold unit3, lsq, dot3, neg3; simpl. intros. lra. Qed.
Lemma max_neg a b : Rmax (- a) (- b) = - Rmin a b.
Proof. unfold Rmax, Rmin. destruct (Rle_dec (- a) (- b)), (Rle_dec a b); lra. Qed.

Lemma sphere_aabb_ok r pos : 0 <= r → least_box (sphere_aabb r pos) (ball pos r).
Proof.
  intros Hr. assert (F : ∀ d, unit3 d → is_support (ball pos r) d (dot3 pos d + r)) by (intros; apply ball_support; done).
  pose proof unit_ex. pose proof unit_ey. pose proof unit_ez.
  apply six_supports; unfold sphere_aabb; simpl.
  - rewrite <- dot_ex. auto.
  - replace (- (vx pos - r)) with (dot3 pos (neg3 ex) + r) by (rewrite dot_neg, dot_ex; ring). apply F, unit_neg; done.
  - rewrite <- dot_ey. auto.
  - replace (- (vy pos - r)) with (dot3 pos (neg3 ey) + r) by (rewrite dot_neg, dot_ey; ring). apply F, unit_neg; done.
  - rewrite <- dot_ez. auto.
  - replace (- (vz pos - r)) with (dot3 pos (neg3 ez) + r) by (rewrite dot_neg, dot_ez; ring). apply F, unit_neg; done.
Qed.
Lemma capsule_aabb_ok r hl a pos orn : 0 <= r →
  least_box (capsule_aabb r hl a pos orn)
    (capsule (sub3 pos (scl hl (axis_vec_q a orn))) (add3 pos (scl hl (axis_vec_q a orn))) r).
Proof.
  intros Hr. unfold capsule_aabb. cbv zeta. set (p0 := sub3 pos _). set (p1 := add3 pos _). clearbody p0 p1.
  assert (F : ∀ d, unit3 d → is_support (capsule p0 p1 r) d (capsule_projection p0 p1 r d)) by (intros; apply capsule_support; done).
  pose proof unit_ex. pose proof unit_ey. pose proof unit_ez. unfold capsule_projection in F.
  apply six_supports; simpl.
  - specialize (F ex). rewrite !dot_ex in F. apply F. done.
  - specialize (F (neg3 ex)). rewrite !dot_neg, !dot_ex, max_neg in F. replace (- (Rmin (vx p0) (vx p1) - r)) with (- Rmin (vx p0) (vx p1) + r) by ring. apply F, unit_neg; done.
  - specialize (F ey). rewrite !dot_ey in F. apply F. done.
  - specialize (F (neg3 ey)). rewrite !dot_neg, !dot_ey, max_neg in F. replace (- (Rmin (vy p0) (vy p1) - r)) with (- Rmin (vy p0) (vy p1) + r) by ring. apply F, unit_neg; done.
  - specialize (F ez). rewrite !dot_ez in F. apply F. done.
  - specialize (F (neg3 ez)). rewrite !dot_neg, !dot_ez, max_neg in F. replace (- (Rmin (vz p0) (vz p1) - r)) with (- Rmin (vz p0) (vz p1) + r) by ring. apply F, unit_neg; done.
Qed.
