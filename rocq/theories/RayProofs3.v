(** Proofs about RayModel.v: cylinders and capsules. *)
From Verif Require Import Outcome BoxModel GeoModel RotSpec RotProofs NearModel NearSpec NearProofs RayModel RaySpec RayProofs.
From Coq Require Import Reals Lra Psatz.
Local Open Scope R_scope.

Lemma axis_unit ax orn : qlsq orn = 1 → dot3 (axis_vec_q ax orn) (axis_vec_q ax orn) = 1.
Proof.
  intros H. unfold axis_vec_q. rewrite rotate_dot by done. destruct ax; unfold dot3, axis_vec, ex, ey, ez; simpl; ring.
Qed.
Lemma dot3_comm a b : dot3 a b = dot3 b a.
Proof. destruct a, b; unfold dot3; simpl; ring. Qed.

Lemma rad2_at pos a c w : dot3 a a = 1 → rad2 pos a (add3 (add3 pos (scl c a)) w) = lsq w - dot3 w a * dot3 w a.
Proof.
  intros Ha. unfold rad2, axial.
  assert (lsq (sub3 (add3 (add3 pos (scl c a)) w) pos) = c * c * dot3 a a + 2 * c * dot3 w a + lsq w) as ->.
  { destruct pos, a, w. unfold lsq, dot3, sub3, add3, scl; simpl. ring. }
  assert (dot3 (sub3 (add3 (add3 pos (scl c a)) w) pos) a = c * dot3 a a + dot3 w a) as ->.
  { destruct pos, a, w. unfold dot3, sub3, add3, scl; simpl. ring. }
  rewrite Ha. ring.
Qed.
Lemma rad2_nonneg pos a x : dot3 a a = 1 → 0 <= rad2 pos a x.
Proof.
  intros Ha. unfold rad2, axial. pose proof (lagrange (sub3 x pos) a) as L. rewrite Ha in L.
  pose proof (lsq_nonneg (cross3 (sub3 x pos) a)). unfold lsq in *. lra.
Qed.
Lemma cylinder_iff pos a r hl x : dot3 a a = 1 → 0 <= r →
  cylinder pos a r hl x ↔ - hl <= axial pos a x <= hl ∧ rad2 pos a x <= r * r.
Proof.
  intros Ha Hr. unfold cylinder. fold (axial pos a x). rewrite <- dist_le_r by done.
  assert (lsq (sub3 x (add3 pos (scl (axial pos a x) a))) = rad2 pos a x) as ->; [|done].
  unfold rad2. transitivity (lsq (sub3 x pos) - 2 * axial pos a x * axial pos a x + axial pos a x * axial pos a x * dot3 a a); [|rewrite Ha; ring].
  unfold axial. destruct x, pos, a. unfold lsq, dot3, sub3, add3, scl; simpl. ring.
Qed.
Lemma axial_along pos a p0 p1 t : axial pos a (along p0 p1 t) = axial pos a p0 + t * dot3 (sub3 p1 p0) a.
Proof. unfold axial, along. destruct p0, p1, pos, a. unfold dot3, sub3, add3, scl; simpl. ring. Qed.

Lemma verts pos orn hl ax :
  cyl_vertices pos orn hl ax = (add3 pos (scl hl (axis_vec_q ax orn)), add3 pos (scl (- hl) (axis_vec_q ax orn))).
Proof.
  unfold cyl_vertices. f_equal. destruct pos, (axis_vec_q ax orn). unfold sub3, add3, scl; simpl. f_equal; ring.
Qed.
Lemma verts_sub pos (a : v3) hl : sub3 (add3 pos (scl (- hl) a)) (add3 pos (scl hl a)) = scl (- (2 * hl)) a.
Proof. destruct pos, a. unfold sub3, add3, scl; simpl. f_equal; ring. Qed.

(** ** The infinite cylinder *)
Lemma ray_cylinder_ok p0 p1 pos orn r hl ax :
  qlsq orn = 1 → 0 <= r → 0 < hl →
  let a := axis_vec_q ax orn in
  match intersect_ray_cylinder p0 p1 pos orn r hl ax with
  | RCParallel => lsq (cross3 (scl (2 * hl) a) (sub3 p1 p0)) <= eps
  | RCFar => ∀ t, r * r < rad2 pos a (along p0 p1 t)
  | RCHit fin fout ds n =>
      ∃ K tm de c, 0 < K ∧ 0 <= de ∧ ds <= r * r ∧ ds = lsq n ∧ K * (de * de) = r * r - ds ∧ fin = tm - de ∧ fout = tm + de ∧
      dot3 n a = 0 ∧ dot3 n (sub3 p1 p0) = 0 ∧
      (∀ t, along p0 p1 t = add3 (add3 pos (scl c a)) (add3 n (scl (t - tm) (sub3 p1 p0)))) ∧
      ∀ t, rad2 pos a (along p0 p1 t) = ds + K * ((t - tm) * (t - tm))
  end.
Proof.
  intros Hq Hr Hhl a. unfold intersect_ray_cylinder. rewrite verts. fold a.
  assert (Ha : dot3 a a = 1) by (apply axis_unit; done). clearbody a.
  assert (Hx : lsq (cross3 (scl (2 * hl) a) (sub3 p1 p0)) = lsq (cross3 (scl (- (2 * hl)) a) (sub3 p1 p0))).
  { destruct a, (sub3 p1 p0). unfold lsq, cross3, scl; simpl. unfold dot3; simpl. ring. }
  destruct (closest_point_line_line _ _ _ _) as [[s t]|] eqn:E.
  2: { apply line_line_none in E. rewrite verts_sub in E. rewrite Hx. done. }
  assert (Hsk : eps < lsq (cross3 (scl (- (2 * hl)) a) (sub3 p1 p0))).
  { apply Rnot_le_lt. intros Hc. rewrite <- (verts_sub pos) in Hc. apply line_line_none in Hc. rewrite Hc in E. discriminate. }
  apply line_line_ok in E as (_ & O1 & O2). rewrite verts_sub in *. rewrite !lerp_along.
  set (d := sub3 p1 p0) in *.
  set (C := add3 (add3 pos (scl hl a)) (scl s (scl (- (2 * hl)) a))) in *.
  assert (ECl : along (add3 pos (scl hl a)) (add3 pos (scl (- hl) a)) s = C) by (unfold along; rewrite verts_sub; done). rewrite ECl.
  assert (EC : C = add3 pos (scl (hl - 2 * hl * s) a)).
  { unfold C. destruct pos, a. unfold add3, scl; simpl. f_equal; ring. }
  set (X := add3 p0 (scl t d)) in *. assert (EX : along p0 p1 t = X) by done. rewrite EX.
  set (n := sub3 X C) in *.
  assert (N1 : dot3 n a = 0).
  { assert (dot3 (scl (- (2 * hl)) a) (sub3 C X) = 2 * hl * dot3 n a) as F.
    { unfold n. destruct C, X, a. unfold dot3, sub3, scl; simpl. ring. }
    rewrite F in O1. apply Rmult_integral in O1 as [|]; [lra|done]. }
  assert (N2 : dot3 n d = 0).
  { assert (dot3 d (sub3 C X) = - dot3 n d) as F by (unfold n; destruct C, X, d; unfold dot3, sub3; simpl; ring). lra. }
  assert (Al : ∀ u, along p0 p1 u = add3 (add3 pos (scl (hl - 2 * hl * s) a)) (add3 n (scl (u - t) d))).
  { intros u. rewrite <- EC. unfold n, X, along. fold d. destruct p0, d, C. unfold add3, sub3, scl; simpl. f_equal; ring. }
  set (K := dot3 d d - dot3 d a * dot3 d a).
  assert (Hrad : ∀ u, rad2 pos a (along p0 p1 u) = lsq n + K * ((u - t) * (u - t))).
  { intros u. rewrite Al, rad2_at by done.
    assert (lsq (add3 n (scl (u - t) d)) = lsq n + 2 * (u - t) * dot3 n d + (u - t) * (u - t) * dot3 d d) as ->.
    { destruct n, d. unfold lsq, dot3, add3, scl; simpl. ring. }
    assert (dot3 (add3 n (scl (u - t) d)) a = dot3 n a + (u - t) * dot3 d a) as ->.
    { destruct n, d, a. unfold dot3, add3, scl; simpl. ring. }
    rewrite N1, N2. unfold K. ring. }
  assert (Hdd : dot3 (scl (- (2 * hl)) a) (scl (- (2 * hl)) a) = 4 * hl * hl).
  { transitivity (4 * hl * hl * dot3 a a); [|rewrite Ha; ring]. destruct a. unfold dot3, scl; simpl. ring. }
  assert (Hde : dot3 d (scl (- (2 * hl)) a) = - (2 * hl) * dot3 d a).
  { destruct a, d. unfold dot3, scl; simpl. ring. }
  rewrite lagrange, Hdd, (dot3_comm (scl (- (2 * hl)) a) d), Hde in Hsk.
  assert (HK : 0 < K).
  { pose proof eps_pos. unfold K. assert (0 < 4 * hl * hl * (dot3 d d - dot3 d a * dot3 d a)) by lra.
    assert (0 < 4 * hl * hl) by nra. nra. }
  rewrite Hdd, Hde.
  destruct (rltb (r * r) (lsq n)) eqn:Ef.
  { apply rltb_true in Ef. intros u. rewrite Hrad. pose proof (Rle_0_sqr (u - t)) as P. unfold Rsqr in P. nra. }
  apply rltb_false in Ef.
  set (dl := (r * r - lsq n) * (4 * hl * hl) / (dot3 d d * (4 * hl * hl) - - (2 * hl) * dot3 d a * (- (2 * hl) * dot3 d a))).
  assert (Edl : K * dl = r * r - lsq n).
  { unfold dl, K. field. replace (dot3 d d * (4 * hl * hl) - - (2 * hl) * dot3 d a * (- (2 * hl) * dot3 d a)) with (4 * hl * hl * K) by (unfold K; ring).
    assert (0 < 4 * hl * hl * K) by (apply Rmult_lt_0_compat; nra). lra. }
  assert (0 <= dl).
  { clear -Edl HK Ef. clearbody dl K. apply Rnot_lt_le. intros Hn. nra. }
  exists K, t, (sqrt dl), (hl - 2 * hl * s). rewrite sqrt_sqrt by done.
  pose proof (sqrt_pos dl). split_and!; auto; lra.
Qed.

Lemma tube_iff K tm de ds rr t : 0 < K → 0 <= de → K * (de * de) = rr - ds →
  ds + K * ((t - tm) * (t - tm)) <= rr ↔ tm - de <= t <= tm + de.
Proof.
  intros HK Hde E. assert (rr = ds + K * (de * de)) as -> by lra. split.
  - intros H. assert ((t - tm) * (t - tm) <= de * de) by nra. split; nra.
  - intros H. assert ((t - tm) * (t - tm) <= de * de) by nra. nra.
Qed.

(** ** Cylinders *)
Lemma cross_zero a d : dot3 a a = 1 → lsq (cross3 a d) = 0 → d = scl (dot3 d a) a.
Proof.
  intros Ha H. rewrite lagrange, Ha, (dot3_comm a d) in H.
  assert (lsq (sub3 d (scl (dot3 d a) a)) = 0) as Hz.
  { transitivity (dot3 d d - 2 * dot3 d a * dot3 d a + dot3 d a * dot3 d a * dot3 a a).
    - destruct d, a. unfold lsq, dot3, sub3, scl; simpl. ring.
    - rewrite Ha. lra. }
  apply lsq_zero in Hz. destruct d as [x y z]. set (k := dot3 _ _) in *. clearbody k. destruct a.
  unfold sub3, scl, vec0 in *; simpl in *. injection Hz as ? ? ?. f_equal; lra.
Qed.

Lemma cyl_dir_norm pos (a : v3) hl n : dot3 a a = 1 → 0 < hl →
  normalize3 (sub3 (add3 pos (scl (- hl) a)) (add3 pos (scl hl a))) = Ok n → n = scl (-1) a.
Proof.
  intros Ha Hh H. apply normalize_ok in H as (_ & -> & _). rewrite verts_sub.
  assert (len (scl (- (2 * hl)) a) = 2 * hl) as ->.
  { unfold len. assert (lsq (scl (- (2 * hl)) a) = (2 * hl) * (2 * hl)) as ->.
    { transitivity (2 * hl * (2 * hl) * dot3 a a); [|rewrite Ha; ring]. destruct a. unfold lsq, dot3, scl; simpl. ring. }
    apply sqrt_square. lra. }
  destruct a. unfold div3, scl; simpl. f_equal; field; lra.
Qed.

(** the face that the code tries *)
Lemma cyl_face_dist pos a sg hl x : dot3 a a = 1 → axial pos a x = sg * hl →
  lsq (sub3 x (add3 pos (scl (sg * hl) a))) = rad2 pos a x.
Proof.
  intros Ha E. unfold rad2. rewrite <- E.
  transitivity (lsq (sub3 x pos) - 2 * axial pos a x * axial pos a x + axial pos a x * axial pos a x * dot3 a a); [|rewrite Ha; ring].
  unfold axial. destruct x, pos, a. unfold lsq, dot3, sub3, add3, scl; simpl. ring.
Qed.
Lemma lsq_sub_comm x y : lsq (sub3 x y) = lsq (sub3 y x).
Proof. destruct x, y. unfold lsq, dot3, sub3; simpl. ring. Qed.

Lemma face_outward pos a r hl sg x : dot3 a a = 1 → 0 <= r → sg = 1 ∨ sg = -1 → axial pos a x = sg * hl →
  outward (cylinder pos a r hl) x (scl sg a).
Proof.
  intros Ha Hr Hs Hx. split.
  - unfold unit3. transitivity (sg * sg * dot3 a a); [destruct a; unfold dot3, scl; simpl; ring|]. rewrite Ha. destruct Hs as [-> | ->]; ring.
  - intros y Hy. apply cylinder_iff in Hy as [Hy _]; [|done..].
    assert (dot3 (sub3 y x) (scl sg a) = sg * (axial pos a y - axial pos a x)) as ->.
    { unfold axial. destruct x, y, pos, a. unfold dot3, sub3, scl; simpl. ring. }
    rewrite Hx. destruct Hs as [-> | ->]; lra.
Qed.

Lemma cyl_ok r hl ax c o :
  qlsq (rc_orn c) = 1 → 0 <= r → 0 < hl →
  let a := axis_vec_q ax (rc_orn c) in
  axis_clear hl a (rc_p0 c) (rc_p1 c) →
  raycast_cylinder r hl ax c = Ok o →
  let S := cylinder (rc_pos c) a r hl in
  match o with
  | None => ¬ S (rc_p0 c) → ¬ ∃ t, 0 <= t ∧ S (along (rc_p0 c) (rc_p1 c) t) ∧ - hl < axial (rc_pos c) a (along (rc_p0 c) (rc_p1 c) t) < hl
  | Some h =>
      S (along (rc_p0 c) (rc_p1 c) (h_frac h)) ∧
      (0 <= h_frac h → ¬ S (rc_p0 c) → ray_entry S (rc_p0 c) (rc_p1 c) (h_frac h)) ∧
      match h_feature h with
      | FCylinderSide =>
          line_entry S (rc_p0 c) (rc_p1 c) (h_frac h) ∧ dot3 (sub3 (rc_p1 c) (rc_p0 c)) (h_normal h) = 0 ∧
          (∀ t, 0 < rad2 (rc_pos c) a (along (rc_p0 c) (rc_p1 c) t)) ∧
          ((∃ t, rad2 (rc_pos c) a (along (rc_p0 c) (rc_p1 c) t) < r * r) →
           ¬ outward S (along (rc_p0 c) (rc_p1 c) (h_frac h)) (h_normal h))
      | FCylinderFace _ => outward S (along (rc_p0 c) (rc_p1 c) (h_frac h)) (h_normal h) ∧
          Rabs (axial (rc_pos c) a (along (rc_p0 c) (rc_p1 c) (h_frac h))) = hl
      | _ => False
      end
  end.
Proof.
  intros Hq Hr Hhl a Hcl. unfold raycast_cylinder.
  pose proof (ray_cylinder_ok (rc_p0 c) (rc_p1 c) (rc_pos c) (rc_orn c) r hl ax Hq Hr Hhl) as RC. cbn zeta in RC.
  rewrite verts. fold a in RC |- *. assert (Ha : dot3 a a = 1) by (apply axis_unit; done). clearbody a.
  set (p0 := rc_p0 c) in *. set (p1 := rc_p1 c) in *. set (pos := rc_pos c) in *. clearbody p0 p1 pos.
  pose proof (axial_along pos a p0 p1) as Hax. set (d := sub3 p1 p0) in *.
  set (al := axial pos a p0) in *. set (be := dot3 d a) in *.
  assert (HS : ∀ x, cylinder pos a r hl x ↔ - hl <= axial pos a x <= hl ∧ rad2 pos a x <= r * r) by (intros; apply cylinder_iff; done).
  assert (HS0 : cylinder pos a r hl p0 ↔ - hl <= al <= hl ∧ rad2 pos a (along p0 p1 0) <= r * r) by (rewrite HS, along_0; done).
  assert (Hfirst : rltb (dot3 (sub3 p0 pos) (sub3 (add3 pos (scl (- hl) a)) (add3 pos (scl hl a)))) 0 = rltb 0 al).
  { rewrite verts_sub. assert (dot3 (sub3 p0 pos) (scl (- (2 * hl)) a) = - (2 * hl) * al) as ->.
    { unfold al, axial. destruct p0, pos, a. unfold dot3, sub3, scl; simpl. ring. }
    unfold rltb. destruct (Rlt_dec 0 al), Rlt_dec; try done; nra. }
  rewrite Hfirst. clear Hfirst.
  set (sg := if rltb 0 al then 1 else -1).
  assert (Hsg : sg = 1 ∧ 0 < al ∨ sg = -1 ∧ al <= 0).
  { unfold sg. destruct (rltb 0 al) eqn:E; [apply rltb_true in E|apply rltb_false in E]; [left|right]; done. }
  assert (Hsg1 : sg = 1 ∨ sg = -1) by tauto.
  assert (Efv : (if rltb 0 al then add3 pos (scl hl a) else add3 pos (scl (- hl) a)) = add3 pos (scl (sg * hl) a)).
  { unfold sg. destruct rltb; do 2 f_equal; ring. }
  assert (Efn : scl (if rltb 0 al then -1 else 1) (scl (-1) a) = scl sg a).
  { unfold sg. destruct rltb; destruct a; unfold scl; simpl; f_equal; ring. }
  destruct (intersect_ray_cylinder _ _ _ _ _ _ _) as [| |fin fout ds n].
  - (* parallel *)
    unfold axis_clear in Hcl. cbn zeta in Hcl. fold d in Hcl. destruct Hcl as [Hcl|Hcl]; [|lra].
    assert (Hd : d = scl be a).
    { apply cross_zero; [done|]. assert (lsq (cross3 (scl (2 * hl) a) d) = 4 * hl * hl * lsq (cross3 a d)) as F.
      { destruct a, d. unfold lsq, cross3, scl, dot3; simpl. ring. }
      rewrite F in Hcl. apply Rmult_integral in Hcl as [|]; [nra|done]. }
    destruct (normalize3 _) as [nn| | |] eqn:En; try discriminate. apply cyl_dir_norm in En as ->; [|done..]. cbn [mbind res_bind].
    rewrite Efv, Efn.
    destruct (closest_point_line _ _ _) as [[[q t] x]| | |] eqn:El; try discriminate. cbn [mbind res_bind].
    assert (Hdd : eps < dot3 d d).
    { unfold closest_point_line, assert_ in El. destruct (rltb eps (dot3 d d)) eqn:E2; [|discriminate El]. apply rltb_true in E2. done. }
    apply line_ok in El as (-> & -> & _ & Ho).
    assert (Hbe : be ≠ 0).
    { intros E. rewrite E in Hd. pose proof eps_pos. rewrite Hd in Hdd. destruct a; unfold dot3, scl in Hdd; simpl in Hdd. lra. }
    fold (along p0 p1 t) in *. change (add3 p0 (scl t d)) with (along p0 p1 t) in *.
    assert (Hat : axial pos a (along p0 p1 t) = sg * hl).
    { assert (dot3 (sub3 (add3 pos (scl (sg * hl) a)) (along p0 p1 t)) d = be * (sg * hl * dot3 a a - axial pos a (along p0 p1 t))) as F.
      { rewrite Hd at 1. unfold axial. destruct pos, a, (along p0 p1 t). unfold dot3, sub3, add3, scl; simpl. ring. }
      rewrite F, Ha in Ho. apply Rmult_integral in Ho as [|]; [done|lra]. }
    assert (Hrc : ∀ u, rad2 pos a (along p0 p1 u) = rad2 pos a p0).
    { intros u. unfold along. fold d. rewrite Hd. unfold rad2, axial.
      transitivity (lsq (sub3 p0 pos) + 2 * u * be * dot3 (sub3 p0 pos) a + u * u * be * be * dot3 a a - (dot3 (sub3 p0 pos) a + u * be * dot3 a a) * (dot3 (sub3 p0 pos) a + u * be * dot3 a a)); [|rewrite Ha; ring].
      destruct p0, pos, a. unfold lsq, dot3, sub3, add3, scl; simpl. ring. }
    rewrite lsq_sub_comm, cyl_face_dist by done. rewrite Hrc.
    destruct (rltb (r * r) (rad2 pos a p0)) eqn:E.
    + apply rltb_true in E. intros [= <-]. intros _ (u & Hu & Hs & _). apply HS in Hs as [_ Hs]. rewrite Hrc in Hs. lra.
    + apply rltb_false in E. intros [= <-]. cbn [h_frac h_feature h_normal].
      assert (St : cylinder pos a r hl (along p0 p1 t)).
      { apply HS. rewrite Hat, Hrc. split; [|done]. destruct Hsg1 as [-> | ->]; lra. }
      split; [done|]. split; [|split; [apply face_outward; done|rewrite Hat; destruct Hsg1 as [-> | ->]; [rewrite Rabs_right|rewrite Rabs_left]; lra]].
      intros Ht Hout. split; [done|]. split; [done|]. intros u Hu Hs. apply HS in Hs as [Hs _].
      rewrite Hax in Hs, Hat. fold al be in Hs, Hat. rewrite HS0, Hrc in Hout.
      assert (Hal : ¬ (- hl <= al <= hl)) by tauto.
      destruct Hsg as [[-> ?]|[-> ?]].
      * assert (hl < al) by (apply Rnot_le_lt; intros ?; apply Hal; lra). assert (be < 0) by nra. nra.
      * assert (al < - hl) by (apply Rnot_le_lt; intros ?; apply Hal; lra). assert (0 < be) by nra. nra.
  - intros [= <-]. intros _ (u & Hu & Hs & _). apply HS in Hs as [_ Hs]. specialize (RC u). lra.
  - destruct RC as (K & tm & de & cc & HK & Hde & Hds & En & EK & -> & -> & N1 & N2 & Al & Hrad).
    assert (Ht : ∀ t, rad2 pos a (along p0 p1 t) <= r * r ↔ tm - de <= t <= tm + de).
    { intros t. rewrite Hrad. apply tube_iff; done. }
    destruct (normalize3 _) as [nn| | |] eqn:Enn; try discriminate. apply cyl_dir_norm in Enn as ->; [|done..]. cbn [mbind res_bind].
    rewrite Efv, Efn, !lerp_along.
    assert (J0 : ∀ x s, dot3 (sub3 x (add3 pos (scl s a))) (scl (-1) a) = s - axial pos a x).
    { intros x s. transitivity (s * dot3 a a - axial pos a x); [|rewrite Ha; ring]. unfold axial. destruct x, pos, a. unfold dot3, sub3, add3, scl; simpl. ring. }
    rewrite !J0. set (fin := tm - de) in *.
    destruct (rltb 0 (hl - axial pos a (along p0 p1 fin)) && rltb (- hl - axial pos a (along p0 p1 fin)) 0) eqn:E.
    + apply andb_prop in E as [E1 E2]. apply rltb_true in E1, E2.
      destruct Req_EM_T as [|Hl]; [discriminate|]. intros [= <-]. cbn [h_frac h_feature h_normal].
      assert (Sf : cylinder pos a r hl (along p0 p1 fin)).
      { apply HS. split; [lra|]. apply Ht. unfold fin; lra. }
      assert (Hle : line_entry (cylinder pos a r hl) p0 p1 fin).
      { split; [done|]. intros u Hs. apply HS in Hs as [_ Hs]. apply Ht in Hs. lra. }
      split; [done|]. split; [intros H1 _; split; [done|]; split; [done|]; intros u _ Hs; apply Hle, Hs|].
      split; [done|].
      set (l := sqrt ds) in *.
      assert (Edn : ∀ w, dot3 w (div3 n l) = dot3 w n / l).
      { intros w. destruct w, n. unfold dot3, div3; simpl. field. done. }
      split; [rewrite Edn, dot3_comm; fold d; rewrite N2; unfold Rdiv; ring|].
      split.
      { intros u. rewrite Hrad. pose proof (Rle_0_sqr (u - tm)) as P. unfold Rsqr in P.
        assert (0 < ds); [|nra]. rewrite En. destruct (Rle_lt_or_eq_dec 0 (lsq n) (lsq_nonneg n)) as [|Z]; [done|].
        exfalso. apply Hl. unfold l. rewrite En, <- Z. apply sqrt_0. }
      intros (u & Hu) [_ Ho].
      assert (Hdsr : ds < r * r).
      { rewrite Hrad in Hu. pose proof (Rle_0_sqr (u - tm)) as P. unfold Rsqr in P. nra. }
      assert (Hl0 : 0 < l). { pose proof (sqrt_pos ds). unfold l in *. lra. }
      assert (Hll : l * l = ds) by (apply sqrt_sqrt; rewrite En; apply lsq_nonneg).
      set (x := along p0 p1 fin) in *.
      set (y := add3 (add3 pos (scl (axial pos a x) a)) (scl (r / l) n)).
      assert (Hy : cylinder pos a r hl y).
      { apply HS. unfold y. rewrite rad2_at by done.
        assert (axial pos a (add3 (add3 pos (scl (axial pos a x) a)) (scl (r / l) n)) = axial pos a x) as ->.
        { unfold axial at 1. transitivity (axial pos a x * dot3 a a + r / l * dot3 n a); [|rewrite Ha, N1; ring].
          destruct pos, a, n. unfold dot3, sub3, add3, scl; simpl. ring. }
        split; [lra|].
        assert (dot3 (scl (r / l) n) a = r / l * dot3 n a) as -> by (destruct n, a; unfold dot3, scl; simpl; ring). rewrite N1.
        assert (lsq (scl (r / l) n) = r * r / (l * l) * lsq n) as -> by (destruct n; unfold lsq, dot3, scl; simpl; field; done).
        rewrite <- En, Hll. right. field. nra. }
      specialize (Ho y Hy). rewrite Edn in Ho.
      assert (dot3 (sub3 y x) n = r / l * ds - ds) as Ey.
      { unfold y, x. rewrite Al.
        set (w := axial pos a _).
        transitivity ((w - cc) * dot3 n a + r / l * dot3 n n - dot3 n n - (fin - tm) * dot3 n d).
        - fold d. destruct pos, a, n, d. unfold dot3, sub3, add3, scl; simpl. ring.
        - rewrite N1, N2, En. unfold lsq. ring. }
      rewrite Ey in Ho.
      assert (Hlr : l < r) by nra.
      assert ((r / l * ds - ds) / l = r - l) as F by (rewrite <- Hll; field; done). lra.
    + apply andb_false_iff in E.
      unfold rdiv. destruct Req_EM_T as [|Hdn]; [discriminate|]. cbn [mbind res_bind].
      assert (E1 : dot3 d (scl sg a) = sg * be) by (unfold be; destruct d, a; unfold dot3, scl; simpl; ring).
      rewrite E1 in *.
      assert (E2 : dot3 (sub3 (add3 pos (scl (sg * hl) a)) p0) (scl sg a) = sg * (sg * hl - al)).
      { transitivity (sg * (sg * hl * dot3 a a - al)); [|rewrite Ha; ring]. unfold al, axial. destruct pos, a, p0. unfold dot3, sub3, add3, scl; simpl. ring. }
      rewrite E2, !lerp_along.
      assert (Hbe : be ≠ 0). { intros Z. apply Hdn. rewrite Z. ring. }
      set (t := sg * (sg * hl - al) / (sg * be)).
      assert (Et : al + t * be = sg * hl).
      { unfold t. destruct Hsg1 as [-> | ->]; field; done. }
      assert (Hat : axial pos a (along p0 p1 t) = sg * hl) by (rewrite Hax; done).
      unfold dsq. rewrite cyl_face_dist by done.
      assert (Hfin : hl <= al + fin * be ∨ al + fin * be <= - hl).
      { rewrite Hax in E. fold al be in E. destruct E as [E|E]; apply rltb_false in E; lra. }
      destruct (rltb (r * r) (rad2 pos a (along p0 p1 t))) eqn:E3.
      * apply rltb_true in E3. intros [= <-]. intros Hout (u & Hu & Hs & Hu2). apply HS in Hs as [_ Hs]. rewrite Hax in Hu2. fold al be in Hu2.
        apply Ht in Hs. rewrite HS0, Ht in Hout. assert (Htt : ¬ (fin <= t <= tm + de)) by (rewrite <- Ht; lra).
        assert (fin <= tm + de) by (unfold fin; lra). clearbody fin t sg. clear -Hhl Hsg Et Hfin Htt Hout Hs Hu Hu2 H.
        destruct (Rle_or_lt fin 0) as [Hf|Hf].
        -- (* the start is in the tube, so it is out of the slab *)
           assert (Hal : ¬ (- hl <= al <= hl)) by (intros ?; apply Hout; split; [done|lra]).
           destruct Hsg as [[-> ?]|[-> ?]].
           ++ assert (hl < al) by (apply Rnot_le_lt; intros ?; apply Hal; lra). assert (be < 0) by nra.
              apply Htt. split; nra.
           ++ assert (al < - hl) by (apply Rnot_le_lt; intros ?; apply Hal; lra). assert (0 < be) by nra.
              apply Htt. split; nra.
        -- (* the tube starts ahead, out of the slab *)
           assert (Hfu : fin <= u) by lra.
           destruct Hsg as [[-> ?]|[-> ?]].
           ++ assert (be < 0). { destruct Hfin; [|nra]. destruct (Rle_or_lt 0 be); [nra|done]. }
              assert (hl <= al + fin * be) by (destruct Hfin; [done|nra]).
              apply Htt. split; nra.
           ++ assert (0 < be). { destruct Hfin; [nra|]. destruct (Rle_or_lt be 0); [nra|done]. }
              assert (al + fin * be <= - hl) by (destruct Hfin; [nra|done]).
              apply Htt. split; nra.
      * apply rltb_false in E3. intros [= <-]. cbn [h_frac h_feature h_normal].
        assert (St : cylinder pos a r hl (along p0 p1 t)).
        { apply HS. rewrite Hat. split; [|done]. destruct Hsg1 as [-> | ->]; lra. }
        split; [done|]. split; [|split; [apply face_outward; done|rewrite Hat; destruct Hsg1 as [-> | ->]; [rewrite Rabs_right|rewrite Rabs_left]; lra]].
        intros Ht0 Hout. split; [done|]. split; [done|]. intros u Hu Hs. apply HS in Hs as [Hs1 Hs2]. rewrite Hax in Hs1. fold al be in Hs1.
        apply Ht in E3, Hs2. rewrite HS0, Ht in Hout. assert (fin <= tm + de) by (unfold fin; lra).
        apply Rnot_lt_le. intros Hlt. clearbody fin t sg. clear -Hbe Hhl Hsg Et Hfin Hout Hs1 Hs2 E3 Ht0 Hu Hlt H.
        destruct (Rle_or_lt fin 0) as [Hf|Hf].
        -- assert (Hal : ¬ (- hl <= al <= hl)) by (intros ?; apply Hout; split; [done|lra]).
           destruct Hsg as [[-> ?]|[-> ?]].
           ++ assert (hl < al) by (apply Rnot_le_lt; intros ?; apply Hal; lra). assert (be < 0) by nra. nra.
           ++ assert (al < - hl) by (apply Rnot_le_lt; intros ?; apply Hal; lra). assert (0 < be) by nra. nra.
        -- destruct Hsg as [[-> ?]|[-> ?]].
           ++ destruct (Rle_or_lt 0 be) as [Hb|Hb]; [|nra].
              assert (0 < be) by (destruct (Rle_lt_or_eq_dec _ _ Hb); [lra|congruence]). destruct Hfin; [|nra]. assert (t <= fin) by nra. lra.
           ++ destruct (Rle_or_lt be 0) as [Hb|Hb]; [|nra].
              assert (be < 0) by (destruct (Rle_lt_or_eq_dec _ _ Hb); [lra|congruence]). destruct Hfin; [nra|]. assert (t <= fin) by nra. lra.
Qed.

Lemma cyl_defined r hl ax c :
  qlsq (rc_orn c) = 1 → 0 <= r → tiny < 2 * hl → 
  let a := axis_vec_q ax (rc_orn c) in
  eps < lsq (sub3 (rc_p1 c) (rc_p0 c)) → dot3 (sub3 (rc_p1 c) (rc_p0 c)) a ≠ 0 →
  (∀ t, 0 < rad2 (rc_pos c) a (along (rc_p0 c) (rc_p1 c) t)) →
  ∃ o, raycast_cylinder r hl ax c = Ok o.
Proof.
  intros Hq Hr Hhl0 a Hd Hb Hrad. pose proof tiny_pos. assert (Hhl : 0 < hl) by lra. unfold raycast_cylinder.
  pose proof (ray_cylinder_ok (rc_p0 c) (rc_p1 c) (rc_pos c) (rc_orn c) r hl ax Hq Hr Hhl) as RC. cbn zeta in RC.
  rewrite verts. fold a in RC |- *. assert (Ha : dot3 a a = 1) by (apply axis_unit; done). clearbody a.
  assert (En : ∃ n, normalize3 (sub3 (add3 (rc_pos c) (scl (- hl) a)) (add3 (rc_pos c) (scl hl a))) = Ok n).
  { rewrite verts_sub. unfold normalize3, assert_. eexists.
    assert (rltb tiny (len (scl (- (2 * hl)) a)) = true) as ->; [|done]. apply rltb_true.
    unfold len. assert (lsq (scl (- (2 * hl)) a) = (2 * hl) * (2 * hl)) as ->.
    { transitivity (2 * hl * (2 * hl) * dot3 a a); [|rewrite Ha; ring]. destruct a. unfold lsq, dot3, scl; simpl. ring. }
    rewrite sqrt_square by lra. done. }
  destruct En as [n En].
  destruct (intersect_ray_cylinder _ _ _ _ _ _ _) as [| |fin fout ds nn].
  - rewrite En. cbn [mbind res_bind]. unfold closest_point_line, assert_.
    assert (rltb eps (dot3 (sub3 (rc_p1 c) (rc_p0 c)) (sub3 (rc_p1 c) (rc_p0 c))) = true) as -> by (apply rltb_true; done).
    cbn [mbind res_bind]. match goal with |- context [if rltb ?x ?y then Ok None else _] => destruct (rltb x y) end; eauto.
  - eauto.
  - rewrite En. cbn [mbind res_bind]. apply cyl_dir_norm in En as ->; [|done..].
    destruct RC as (K & tm & de & cc & HK & Hde & Hds & En & EK & -> & -> & N1 & N2 & Al & Hr2).
    destruct (_ && _).
    + destruct Req_EM_T as [Z|]; [|eauto]. exfalso. specialize (Hrad tm). rewrite Hr2 in Hrad.
      assert (ds = 0); [|nra]. rewrite <- (sqrt_sqrt ds) by (rewrite En; apply lsq_nonneg). rewrite Z. ring.
    + unfold rdiv. destruct Req_EM_T as [Z|]; [|cbn [mbind res_bind]; match goal with |- context [if rltb ?x ?y then Ok None else _] => destruct (rltb x y) end; eauto]. exfalso. apply Hb.
      assert (∀ s, dot3 (sub3 (rc_p1 c) (rc_p0 c)) (scl s (scl (-1) a)) = - s * dot3 (sub3 (rc_p1 c) (rc_p0 c)) a) as F.
      { intros s. destruct (sub3 (rc_p1 c) (rc_p0 c)), a. unfold dot3, scl; simpl. ring. }
      rewrite F in Z. destruct rltb; lra.
Qed.

(** ** Capsules *)
Lemma axis_dist pos a k x : dot3 a a = 1 →
  lsq (sub3 x (add3 pos (scl k a))) = rad2 pos a x + (axial pos a x - k) * (axial pos a x - k).
Proof.
  intros Ha. unfold rad2. transitivity (lsq (sub3 x pos) - 2 * k * axial pos a x + k * k * dot3 a a); [|rewrite Ha; ring].
  unfold axial. destruct x, pos, a. unfold lsq, dot3, sub3, add3, scl; simpl. ring.
Qed.
Lemma capsule_iff pos a hl r x : dot3 a a = 1 → 0 <= r → 0 < hl →
  capsule (add3 pos (scl hl a)) (add3 pos (scl (- hl) a)) r x ↔
  ∃ k, - hl <= k <= hl ∧ rad2 pos a x + (axial pos a x - k) * (axial pos a x - k) <= r * r.
Proof.
  intros Ha Hr Hh. unfold capsule. split.
  - intros (y & (t & Ht & ->) & Hy). exists (hl - 2 * hl * t). split; [nra|].
    rewrite <- axis_dist by done. apply dist_le_r in Hy; [|done].
    rewrite verts_sub in Hy.
    assert (add3 (add3 pos (scl hl a)) (scl t (scl (- (2 * hl)) a)) = add3 pos (scl (hl - 2 * hl * t) a)) as E.
    { destruct pos, a. unfold add3, scl; simpl. f_equal; ring. }
    rewrite E in Hy. done.
  - intros (k & Hk & H). exists (add3 pos (scl k a)). split.
    + exists ((hl - k) / (2 * hl)). split.
      * split; [apply Rmult_le_pos; [lra|left; apply Rinv_0_lt_compat; lra]|].
        apply Rmult_le_reg_r with (2 * hl); [lra|]. unfold Rdiv. rewrite Rmult_assoc, Rinv_l by lra. lra.
      * rewrite verts_sub. destruct pos, a. unfold add3, scl; simpl. f_equal; field; lra.
    + apply dist_le_r; [done|]. rewrite axis_dist by done. done.
Qed.
Lemma capsule_mid pos a hl r p0 p1 u w m : dot3 a a = 1 → 0 <= r → 0 < hl →
  let S := capsule (add3 pos (scl hl a)) (add3 pos (scl (- hl) a)) r in
  S (along p0 p1 u) → S (along p0 p1 w) → u <= m <= w → S (along p0 p1 m).
Proof.
  intros Ha Hr Hh S Hu Hw Hm.
  destruct (Req_dec u w) as [->|Hne]. { assert (m = w) as -> by lra. done. }
  destruct Hu as (y & (s & Hs & ->) & Hy). destruct Hw as (z & (t & Ht & ->) & Hz).
  apply dist_le_r in Hy; [|done]. apply dist_le_r in Hz; [|done].
  set (l := (m - u) / (w - u)). assert (El : m = u + l * (w - u)) by (unfold l; field; lra).
  assert (0 <= l <= 1) as Hl.
  { split; [apply Rmult_le_pos; [lra|left; apply Rinv_0_lt_compat; lra]|].
    apply Rmult_le_reg_r with (w - u); [lra|]. unfold l, Rdiv. rewrite Rmult_assoc, Rinv_l by lra. lra. }
  set (v0 := add3 pos (scl hl a)) in *. set (e := sub3 _ v0) in *.
  exists (add3 v0 (scl (s + l * (t - s)) e)). split; [exists (s + l * (t - s)); split; [nra|done]|].
  apply dist_le_r; [done|].
  set (A := sub3 (along p0 p1 u) (add3 v0 (scl s e))) in *. set (B := sub3 (along p0 p1 w) (add3 v0 (scl t e))) in *.
  assert (sub3 (along p0 p1 m) (add3 v0 (scl (s + l * (t - s)) e)) = add3 (scl (1 - l) A) (scl l B)) as ->.
  { unfold A, B, along. rewrite El. clear. destruct p0, p1, v0, e. unfold sub3, add3, scl; simpl. f_equal; ring. }
  assert (lsq (add3 (scl (1 - l) A) (scl l B)) = (1 - l) * lsq A + l * lsq B - l * (1 - l) * lsq (sub3 A B)) as ->.
  { clear. destruct A, B. unfold lsq, dot3, add3, sub3, scl; simpl. ring. }
  pose proof (lsq_nonneg (sub3 A B)) as P. assert (0 <= l * (1 - l)) by nra. nra.
Qed.

(** a point of the capsule past the start lies at or past a point of the ball
    around the end on whose side the line comes in *)
Lemma hemi_reach pos a hl r p0 p1 sg f u : dot3 a a = 1 → 0 <= r → 0 < hl → sg = 1 ∨ sg = -1 →
  let S := capsule (add3 pos (scl hl a)) (add3 pos (scl (- hl) a)) r in
  hl <= sg * axial pos a (along p0 p1 f) → f <= u → 0 <= u → S (along p0 p1 u) → ¬ S p0 →
  (∀ t, f <= t <= u → rad2 pos a (along p0 p1 t) <= r * r) →
  ∃ t, 0 <= t <= u ∧ ball (add3 pos (scl (sg * hl) a)) r (along p0 p1 t).
Proof.
  intros Ha Hr Hh Hsg S Hf Hfu Hu Su Hout Htube.
  assert (Hball : ∀ t, ball (add3 pos (scl (sg * hl) a)) r (along p0 p1 t) ↔
    rad2 pos a (along p0 p1 t) + (axial pos a (along p0 p1 t) - sg * hl) * (axial pos a (along p0 p1 t) - sg * hl) <= r * r).
  { intros t. rewrite ball_sq by done. rewrite axis_dist by done. done. }
  pose proof (axial_along pos a p0 p1) as Hax. set (al := axial pos a p0) in *. set (be := dot3 (sub3 p1 p0) a) in *.
  destruct (Rle_or_lt hl (sg * axial pos a (along p0 p1 u))) as [Hc|Hc].
  - exists u. split; [lra|]. apply Hball. pose proof Su as Su'. apply capsule_iff in Su' as (k & Hk & Hd); [|done..].
    set (x := axial pos a (along p0 p1 u)) in *. assert ((x - sg * hl) * (x - sg * hl) <= (x - k) * (x - k)); [|lra].
    destruct Hsg as [-> | ->]; nra.
  - rewrite Hax in Hf, Hc. fold al be in Hf, Hc.
    assert (Hbe : sg * be ≠ 0). { intros Z. assert (sg * (al + f * be) = sg * (al + u * be)); [|lra]. rewrite !Rmult_plus_distr_l.
      replace (sg * (f * be)) with (f * (sg * be)) by ring. replace (sg * (u * be)) with (u * (sg * be)) by ring. rewrite Z. ring. }
    set (b := sg * be) in *. set (w := sg * al).
    assert (Hf' : hl <= w + f * b) by (unfold w, b; lra). assert (Hc' : w + u * b < hl) by (unfold w, b; lra).
    set (t := (hl - w) / b). assert (Et : w + t * b = hl) by (unfold t; field; done).
    assert (b < 0) by nra. assert (f <= t <= u) by (split; nra).
    assert (St : ball (add3 pos (scl (sg * hl) a)) r (along p0 p1 t)).
    { apply Hball. rewrite Hax. fold al be. assert (al + t * be = sg * hl) as ->.
      { unfold w, b in Et. destruct Hsg as [-> | ->]; lra. }
      specialize (Htube t ltac:(done)). lra. }
    exists t. split; [|done]. split; [|lra]. apply Rnot_lt_le. intros Hn. apply Hout.
    rewrite <- (along_0 p0 p1). apply (capsule_mid pos a hl r p0 p1 t u 0); auto; [|lra].
    apply capsule_iff; [done..|]. exists (sg * hl). split; [destruct Hsg as [-> | ->]; lra|]. apply Hball. done.
Qed.

Lemma ball_capsule pos a hl r sg x : dot3 a a = 1 → 0 <= r → 0 < hl → sg = 1 ∨ sg = -1 →
  ball (add3 pos (scl (sg * hl) a)) r x → capsule (add3 pos (scl hl a)) (add3 pos (scl (- hl) a)) r x.
Proof.
  intros Ha Hr Hh Hsg Hb. apply capsule_iff; [done..|]. exists (sg * hl). split; [destruct Hsg as [-> | ->]; lra|].
  rewrite <- axis_dist by done. apply ball_sq; done.
Qed.

(** the hemisphere that the code tries *)
Lemma hemi_ok r c ui i pos a hl sg o :
  dot3 a a = 1 → 0 <= r → 0 < hl → sg = 1 ∨ sg = -1 → rc_p0 c ≠ rc_p1 c →
  let S := capsule (add3 pos (scl hl a)) (add3 pos (scl (- hl) a)) r in
  ¬ S (rc_p0 c) →
  (∀ u, 0 <= u → S (along (rc_p0 c) (rc_p1 c) u) → ∃ t, 0 <= t <= u ∧ ball (add3 pos (scl (sg * hl) a)) r (along (rc_p0 c) (rc_p1 c) t)) →
  raycast_hemisphere r c ui i (add3 pos (scl (sg * hl) a)) = Ok o →
  match o with
  | None => ¬ meets_ray S (rc_p0 c) (rc_p1 c)
  | Some h => ray_entry S (rc_p0 c) (rc_p1 c) (h_frac h) ∧ h_feature h = FHemisphere i
  end.
Proof.
  intros Ha Hr Hh Hsg Hne S Hout Hreach. unfold raycast_hemisphere.
  destruct (ray_sphere_ok (rc_p0 c) (rc_p1 c) (add3 pos (scl (sg * hl) a)) r Hne Hr) as [[-> H]|(t & -> & H & _)]; cbn [mbind res_bind].
  - intros [= <-]. intros (u & Hu & Su). destruct (Hreach u Hu Su) as (t & Ht & Hb). apply H. exists t. split; [lra|done].
  - destruct ui as [ui|]; cbn [opt_res mbind res_bind]; [|discriminate].
    destruct (normalize3 _) as [n| | |]; try discriminate. intros [= <-]. simpl. split; [|done].
    destruct H as (H1 & H2 & H3). split; [done|]. split; [eapply ball_capsule; eauto|].
    intros u Hu Su. destruct (Hreach u Hu Su) as (t' & Ht' & Hb). specialize (H3 t' ltac:(lra) Hb). lra.
Qed.

Lemma cap_ok r hl ax c o :
  qlsq (rc_orn c) = 1 → 0 <= r → 0 < hl → rc_p0 c ≠ rc_p1 c →
  let a := axis_vec_q ax (rc_orn c) in
  let S := capsule (add3 (rc_pos c) (scl hl a)) (add3 (rc_pos c) (scl (- hl) a)) r in
  axis_clear hl a (rc_p0 c) (rc_p1 c) →
  (∀ t, rad2 (rc_pos c) a (along (rc_p0 c) (rc_p1 c) t) = r * r → axial (rc_pos c) a (along (rc_p0 c) (rc_p1 c) t) ≠ hl) →
  ¬ S (rc_p0 c) →
  raycast_capsule r hl ax c = Ok o →
  match o with
  | None => ¬ meets_ray S (rc_p0 c) (rc_p1 c)
  | Some h => 
      (0 <= h_frac h → ray_entry S (rc_p0 c) (rc_p1 c) (h_frac h)) ∧
      match h_feature h with
      | FCapsuleSide => line_entry S (rc_p0 c) (rc_p1 c) (h_frac h) ∧ dot3 (sub3 (rc_p1 c) (rc_p0 c)) (h_normal h) = 0
      | FHemisphere _ => 0 <= h_frac h
      | _ => False
      end
  end.
Proof.
  intros Hq Hr Hhl Hne a S Hcl Hrim Hout. unfold raycast_capsule.
  pose proof (ray_cylinder_ok (rc_p0 c) (rc_p1 c) (rc_pos c) (rc_orn c) r hl ax Hq Hr Hhl) as RC. cbn zeta in RC.
  rewrite verts. fold a in RC |- *. assert (Ha : dot3 a a = 1) by (apply axis_unit; done). clearbody a.
  assert (Hv : ∀ sg, sg = 1 ∨ sg = -1 → add3 (rc_pos c) (scl hl a) = add3 (rc_pos c) (scl (1 * hl) a) ∧ add3 (rc_pos c) (scl (- hl) a) = add3 (rc_pos c) (scl (-1 * hl) a)).
  { intros. split; do 2 f_equal; ring. }
  destruct (Hv 1 ltac:(auto)) as [V0 V1]. clear Hv.
  set (p0 := rc_p0 c) in *. set (p1 := rc_p1 c) in *. set (pos := rc_pos c) in *.
  pose proof (axial_along pos a p0 p1) as Hax. set (d := sub3 p1 p0) in *.
  set (al := axial pos a p0) in *. set (be := dot3 d a) in *.
  assert (HSt : ∀ x, S x → rad2 pos a x <= r * r).
  { intros x Hx. apply capsule_iff in Hx as (k & _ & Hk); [|done..]. pose proof (Rle_0_sqr (axial pos a x - k)) as P. unfold Rsqr in P. lra. }
  assert (HSs : ∀ x, - hl <= axial pos a x <= hl → rad2 pos a x <= r * r → S x).
  { intros x Hx Hx2. apply capsule_iff; [done..|]. exists (axial pos a x). split; [done|]. lra. }
  destruct (intersect_ray_cylinder _ _ _ _ _ _ _) as [| |fin fout ds n].
  - unfold axis_clear in Hcl. cbn zeta in Hcl. fold d in Hcl. destruct Hcl as [Hcl|Hcl]; [|lra].
    assert (Hd : d = scl be a).
    { apply cross_zero; [done|]. assert (lsq (cross3 (scl (2 * hl) a) d) = 4 * hl * hl * lsq (cross3 a d)) as F.
      { destruct a, d. unfold lsq, cross3, scl, dot3; simpl. ring. }
      rewrite F in Hcl. apply Rmult_integral in Hcl as [|]; [nra|done]. }
    assert (Hrc : ∀ u, rad2 pos a (along p0 p1 u) = rad2 pos a p0).
    { intros u. unfold along. fold d. rewrite Hd. unfold rad2, axial.
      transitivity (lsq (sub3 p0 pos) + 2 * u * be * dot3 (sub3 p0 pos) a + u * u * be * be * dot3 a a - (dot3 (sub3 p0 pos) a + u * be * dot3 a a) * (dot3 (sub3 p0 pos) a + u * be * dot3 a a)); [|rewrite Ha; ring].
      destruct p0, pos, a. unfold lsq, dot3, sub3, add3, scl; simpl. ring. }
    assert (Hfirst : rltb (dot3 (sub3 p0 pos) (sub3 (add3 pos (scl (- hl) a)) (add3 pos (scl hl a)))) 0 = rltb 0 al).
    { rewrite verts_sub. assert (dot3 (sub3 p0 pos) (scl (- (2 * hl)) a) = - (2 * hl) * al) as ->.
      { unfold al, axial. destruct p0, pos, a. unfold dot3, sub3, scl; simpl. ring. }
      unfold rltb. destruct (Rlt_dec 0 al), Rlt_dec; try done; nra. }
    rewrite Hfirst.
    assert (Hreach : ∀ sg, sg = 1 ∨ sg = -1 → 0 <= sg * al → ∀ u, 0 <= u → S (along p0 p1 u) → ∃ t, 0 <= t <= u ∧ ball (add3 pos (scl (sg * hl) a)) r (along p0 p1 t)).
    { intros sg Hsg Hs u Hu Su. assert (Hin : rad2 pos a p0 <= r * r) by (rewrite <- (Hrc u); apply HSt; done).
      apply (hemi_reach pos a hl r p0 p1 sg 0 u); auto; [|intros; rewrite Hrc; done].
      rewrite along_0. fold al. apply Rnot_lt_le. intros Hlt. apply Hout, HSs; [|done]. fold al. destruct Hsg as [-> | ->]; lra. }
    destruct (rltb 0 al) eqn:E.
    + apply rltb_true in E. intros Ho. rewrite V0 in Ho at 1.
      pose proof (hemi_ok r c None 0 pos a hl 1 o Ha Hr Hhl ltac:(auto) Hne Hout (Hreach 1 ltac:(auto) ltac:(lra)) Ho) as R.
      destruct o as [h|]; [|done]. destruct R as [R1 R2]. split; [auto|]. rewrite R2. apply R1.
    + apply rltb_false in E. intros Ho. rewrite V1 in Ho at 1.
      pose proof (hemi_ok r c None 1 pos a hl (-1) o Ha Hr Hhl ltac:(auto) Hne Hout (Hreach (-1) ltac:(auto) ltac:(lra)) Ho) as R.
      destruct o as [h|]; [|done]. destruct R as [R1 R2]. split; [auto|]. rewrite R2. apply R1.
  - intros [= <-]. intros (u & Hu & Hs). apply HSt in Hs. specialize (RC u). lra.
  - destruct RC as (K & tm & de & cc & HK & Hde & Hds & En & EK & -> & -> & N1 & N2 & Al & Hrad).
    assert (Ht : ∀ t, rad2 pos a (along p0 p1 t) <= r * r ↔ tm - de <= t <= tm + de).
    { intros t. rewrite Hrad. apply tube_iff; done. }
    assert (Hrf : rad2 pos a (along p0 p1 (tm - de)) = r * r).
    { rewrite Hrad. replace ((tm - de - tm) * (tm - de - tm)) with (de * de) by ring. lra. }
    pose proof (Hrim _ Hrf) as Hnr.
    rewrite verts_sub, lerp_along. set (fin := tm - de) in *.
    assert (J0 : ∀ x s, dot3 (sub3 x (add3 pos (scl s a))) (scl (- (2 * hl)) a) = 2 * hl * (s - axial pos a x)).
    { intros x s. transitivity (2 * hl * (s * dot3 a a - axial pos a x)); [|rewrite Ha; ring]. unfold axial. destruct x, pos, a. unfold dot3, sub3, add3, scl; simpl. ring. }
    rewrite !J0. set (x := along p0 p1 fin) in *.
    assert (Hfo : fin <= tm + de) by (unfold fin; lra).
    assert (Hreach : ∀ sg, sg = 1 ∨ sg = -1 → hl <= sg * axial pos a x → ∀ u, 0 <= u → S (along p0 p1 u) → ∃ t, 0 <= t <= u ∧ ball (add3 pos (scl (sg * hl) a)) r (along p0 p1 t)).
    { intros sg Hsg Hs u Hu Su. pose proof (HSt _ Su) as Hin. apply Ht in Hin.
      apply (hemi_reach pos a hl r p0 p1 sg fin u); auto; [lra|]. intros t Htt. apply Ht. lra. }
    destruct (_ && _) eqn:E.
    + apply andb_prop in E as [E1 E2]. apply rltb_true in E1, E2.
      destruct Req_EM_T as [|Hl]; [discriminate|]. intros [= <-]. cbn [h_frac h_feature h_normal].
      assert (Hle : line_entry S p0 p1 fin).
      { assert (- hl <= axial pos a x <= hl) as Hsl by (split; nra). split; [apply HSs; [exact Hsl|right; exact Hrf]|]. intros u Hs. apply HSt, Ht in Hs. lra. }
      split; [intros Hf; split; [done|]; split; [apply Hle|]; intros u _; apply Hle|]. split; [done|].
      assert (dot3 d (div3 n (sqrt ds)) = dot3 n d / sqrt ds) as -> by (destruct d, n; unfold dot3, div3; simpl; field; done).
      rewrite N2. unfold Rdiv. ring.
    + apply andb_false_iff in E. destruct (rltb (2 * hl * (hl - axial pos a x)) 0) eqn:E2.
      * apply rltb_true in E2. intros Ho. rewrite V0 in Ho at 1.
        assert (Hc : hl <= 1 * axial pos a x) by nra.
        pose proof (hemi_ok r c (Some fin) 0 pos a hl 1 o Ha Hr Hhl ltac:(auto) Hne Hout (Hreach 1 ltac:(auto) Hc) Ho) as R.
        destruct o as [h|]; [|done]. destruct R as [R1 R2]. split; [auto|]. rewrite R2. apply R1.
      * apply rltb_false in E2. intros Ho. rewrite V1 in Ho at 1.
        assert (Hc : hl <= -1 * axial pos a x).
        { assert (axial pos a x < hl). { apply Rnot_le_lt. intros Hc. apply Hnr. nra. }
          destruct E as [E|E]; apply rltb_false in E; nra. }
        pose proof (hemi_ok r c (Some fin) 1 pos a hl (-1) o Ha Hr Hhl ltac:(auto) Hne Hout (Hreach (-1) ltac:(auto) Hc) Ho) as R.
        destruct o as [h|]; [|done]. destruct R as [R1 R2]. split; [auto|]. rewrite R2. apply R1.
Qed.

(** a ray parallel to the axis never hits *)
Lemma cap_parallel r hl ax c h :
  lsq (cross3 (scl (2 * hl) (axis_vec_q ax (rc_orn c))) (sub3 (rc_p1 c) (rc_p0 c))) <= eps →
  raycast_capsule r hl ax c ≠ Ok (Some h).
Proof.
  intros H. unfold raycast_capsule, intersect_ray_cylinder. rewrite verts.
  set (a := axis_vec_q ax (rc_orn c)) in *.
  assert (closest_point_line_line (add3 (rc_pos c) (scl hl a)) (add3 (rc_pos c) (scl (- hl) a)) (rc_p0 c) (rc_p1 c) = None) as ->.
  { apply line_line_none. rewrite verts_sub.
    assert (lsq (cross3 (scl (- (2 * hl)) a) (sub3 (rc_p1 c) (rc_p0 c))) = lsq (cross3 (scl (2 * hl) a) (sub3 (rc_p1 c) (rc_p0 c)))) as ->; [|done].
    destruct a, (sub3 (rc_p1 c) (rc_p0 c)). unfold lsq, cross3, scl, dot3; simpl. ring. }
  assert (∀ i v, raycast_hemisphere r c None i v ≠ Ok (Some h)) as K.
  { intros i v. unfold raycast_hemisphere. destruct (intersect_ray_sphere _ _ _ _) as [[t|]| | |]; cbn [mbind res_bind]; try discriminate. }
  destruct rltb; apply K.
Qed.

(** a ray that runs beside the caps, past one of them *)
Lemma cyl_beside r hl ax c t :
  qlsq (rc_orn c) = 1 → 0 <= r → tiny < 2 * hl →
  let a := axis_vec_q ax (rc_orn c) in
  eps < lsq (cross3 (scl (2 * hl) a) (sub3 (rc_p1 c) (rc_p0 c))) →
  dot3 (sub3 (rc_p1 c) (rc_p0 c)) a = 0 → hl <= Rabs (axial (rc_pos c) a (rc_p0 c)) →
  rad2 (rc_pos c) a (along (rc_p0 c) (rc_p1 c) t) <= r * r →
  raycast_cylinder r hl ax c = UB.
Proof.
  intros Hq Hr Hhl0 a Hcl Hb Hal Htube. pose proof tiny_pos. assert (Hhl : 0 < hl) by lra. unfold raycast_cylinder.
  pose proof (ray_cylinder_ok (rc_p0 c) (rc_p1 c) (rc_pos c) (rc_orn c) r hl ax Hq Hr Hhl) as RC. cbn zeta in RC.
  rewrite verts. fold a in RC |- *. assert (Ha : dot3 a a = 1) by (apply axis_unit; done). clearbody a.
  assert (En : ∃ n, normalize3 (sub3 (add3 (rc_pos c) (scl (- hl) a)) (add3 (rc_pos c) (scl hl a))) = Ok n).
  { rewrite verts_sub. unfold normalize3, assert_. eexists.
    assert (rltb tiny (len (scl (- (2 * hl)) a)) = true) as ->; [|done]. apply rltb_true.
    unfold len. assert (lsq (scl (- (2 * hl)) a) = (2 * hl) * (2 * hl)) as ->.
    { transitivity (2 * hl * (2 * hl) * dot3 a a); [|rewrite Ha; ring]. destruct a. unfold lsq, dot3, scl; simpl. ring. }
    rewrite sqrt_square by lra. done. }
  destruct En as [n En].
  destruct (intersect_ray_cylinder _ _ _ _ _ _ _) as [| |fin fout ds nn].
  - lra.
  - specialize (RC t). lra.
  - rewrite En. cbn [mbind res_bind]. apply cyl_dir_norm in En as ->; [|done..]. rewrite !lerp_along.
    assert (J0 : ∀ x s, dot3 (sub3 x (add3 (rc_pos c) (scl s a))) (scl (-1) a) = s - axial (rc_pos c) a x).
    { intros x s. transitivity (s * dot3 a a - axial (rc_pos c) a x); [|rewrite Ha; ring]. unfold axial. destruct x, (rc_pos c), a. unfold dot3, sub3, add3, scl; simpl. ring. }
    rewrite !J0, !axial_along, Hb, Rmult_0_r, Rplus_0_r.
    assert (rltb 0 (hl - axial (rc_pos c) a (rc_p0 c)) && rltb (- hl - axial (rc_pos c) a (rc_p0 c)) 0 = false) as ->.
    { unfold Rabs in Hal. apply andb_false_iff. unfold rltb. destruct Rcase_abs.
      - right. destruct Rlt_dec; [lra|done].
      - left. destruct Rlt_dec; [lra|done]. }
    unfold rdiv. destruct Req_EM_T as [|Hn]; [done|]. exfalso. apply Hn.
    assert (∀ s, dot3 (sub3 (rc_p1 c) (rc_p0 c)) (scl s (scl (-1) a)) = - s * dot3 (sub3 (rc_p1 c) (rc_p0 c)) a) as F.
    { intros s. destruct (sub3 (rc_p1 c) (rc_p0 c)), a. unfold dot3, scl; simpl. ring. }
    rewrite F, Hb. ring.
Qed.
