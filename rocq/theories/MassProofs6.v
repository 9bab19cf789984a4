(** Capsules, world inertia and the centre of mass. *)
From Coquelicot Require Import Coquelicot.
From Verif Require Import Outcome BoxModel GeoModel RotSpec RotProofs MassModel MassSpec MassProofs MassProofs2 MassProofs3 MassProofs4 MassProofs5.
From Coq Require Import Reals Lra Psatz.
Local Open Scope R_scope.

Lemma excess_pos mass r hl : 0 < mass → 0 < r → 0 < hl → 0 < capsule_excess mass r hl.
Proof.
  intros M P Q. pose proof PI_RGT_0 as PP. unfold capsule_excess, sphere_volume, cylinder_volume.
  revert PP. generalize PI. intros k K.
  assert (0 < k * r * r * r) by (repeat apply Rmult_lt_0_compat; lra).
  assert (0 < k * r * r * (hl * 2)) by (repeat apply Rmult_lt_0_compat; lra).
  apply Rmult_lt_0_compat; [|nra]. apply Rmult_lt_0_compat; [lra|]. apply Rdiv_lt_0_compat; [|lra].
  apply Rmult_lt_0_compat; lra.
Qed.
(** Entries of the code's tensor for the other axes, from those of axis x. *)
Definition cyl_gap (mass r hl : R) : R :=
  let m := mass * cylinder_volume r (hl * 2) / (cylinder_volume r (hl * 2) + sphere_volume r) in
  1 / 12 * m * (3 * r * r + hl * 2 * (hl * 2)) - 1 / 2 * m * r * r.
Lemma capsule_y mass r hl : 
  let v := inertia_solid_capsule mass (hl * 2) r AX in let d := cyl_gap mass r hl in
  inertia_solid_capsule mass (hl * 2) r AY = V3 (vy v - d) (vx v + d) (vy v - d).
Proof. unfold inertia_solid_capsule, cyl_gap, inertia_solid_cylinder. simpl. f_equal; ring. Qed.
Lemma capsule_z mass r hl : 
  let v := inertia_solid_capsule mass (hl * 2) r AX in let d := cyl_gap mass r hl in
  inertia_solid_capsule mass (hl * 2) r AZ = V3 (vy v) (vy v) (vx v + d).
Proof. unfold inertia_solid_capsule, cyl_gap, inertia_solid_cylinder. simpl. f_equal; ring. Qed.
Lemma capsule_wrong a mass r hl : 0 < mass → 0 < r → 0 < hl →
  ¬ is_inertia (s_capsule a r hl) mass (mdiag (inertia_solid_capsule mass (hl * 2) r a)).
Proof.
  intros M P Q I. pose proof (inertia_unique _ _ _ _ (good_rev _ _ _ _) I (capsule_inertia_true a r hl mass P Q)) as E.
  pose proof (excess_pos mass r hl M P Q) as X.
  destruct a.
  - rewrite capsule_x in E by done. unfold mdiag in E. simpl in E.
    pose proof (f_equal (λ m, vy (r1 m)) E) as E1. simpl in E1. lra.
  - rewrite capsule_y in E. cbv zeta in E. rewrite capsule_x in E by done. unfold mdiag in E. simpl in E.
    pose proof (f_equal (λ m, vx (r0 m)) E) as E1. pose proof (f_equal (λ m, vy (r1 m)) E) as E2. simpl in E1, E2. lra.
  - rewrite capsule_z in E. cbv zeta in E. rewrite capsule_x in E by done. unfold mdiag in E. simpl in E.
    pose proof (f_equal (λ m, vx (r0 m)) E) as E1. simpl in E1. lra.
Qed.

(** * World inertia *)
Lemma mat_ext m n : (∀ v, mvec m v = mvec n v) → m = n.
Proof.
  intros H. pose proof (H (V3 1 0 0)) as A. pose proof (H (V3 0 1 0)) as B. pose proof (H (V3 0 0 1)) as C.
  destruct m as [[a b c] [d e f] [g h k]], n as [[a' b' c'] [d' e' f'] [g' h' k']].
  unfold mvec, dot3 in *. simpl in *. injection A as A1 A2 A3. injection B as B1 B2 B3. injection C as C1 C2 C3.
  f_equal; f_equal; lra.
Qed.
Lemma mid_vec v : mvec mid v = v.
Proof. destruct v. unfold mid, mvec, dot3. simpl. f_equal; ring. Qed.
Lemma trans_mul q : unitq q → mmul (mtrans (to_matrix q)) (to_matrix q) = mid.
Proof. intros H. apply mat_ext. intros v. rewrite mmul_vec, mid_vec, trans_conj, to_matrix_rotate by done. by apply conj_inv. Qed.
Lemma mul_trans q : unitq q → mmul (to_matrix q) (mtrans (to_matrix q)) = mid.
Proof. intros H. apply mat_ext. intros v. rewrite mmul_vec, mid_vec, trans_conj, to_matrix_rotate by done. by apply conj_inv'. Qed.
Lemma world_inverse q i j : unitq q → mmul i j = mid →
  mmul (mmul (mmul (to_matrix q) i) (mtrans (to_matrix q))) (world_inertia_inv q j) = mid.
Proof.
  intros H E. apply mat_ext. intros v. unfold world_inertia_inv. rewrite !mmul_vec.
  rewrite <- (mmul_vec (mtrans (to_matrix q)) (to_matrix q)), trans_mul, mid_vec by done.
  rewrite <- (mmul_vec i j), E, mid_vec, <- mmul_vec, mul_trans by done. done.
Qed.
Lemma shift_zero i m : shift_inertia i m vec0 = i.
Proof.
  apply mat_ext. intros v. unfold shift_inertia. rewrite mvec_madd, mvec_mscale, mmul_vec, mvec_skew.
  destruct i as [[a b c] [d e f] [g h k]], v as [x y z]. unfold cross3, vec0, skew, mtrans, col0, col1, col2, mvec, scl, add3, dot3. simpl. f_equal; ring.
Qed.
Lemma turned_inertia q s v m i : good s → unitq q → is_centroid s v vec0 → is_inertia s m i →
  is_inertia (s_moved q vec0 s) m (mmul (mmul (to_matrix q) i) (mtrans (to_matrix q))).
Proof. intros G H C I. rewrite <- (shift_zero (mmul _ _) m). by eapply moved_inertia. Qed.

(** * Centre of mass *)
Definition com_of (b : body) : v3 := default vec0 (b_com b).
Lemma rotate_zero q : rotate q vec0 = vec0.
Proof. rewrite <- (rotate_sub q vec0 vec0) || idtac. destruct q as [q1 q2 q3 q4]. unfold rotate, vec0, add3, cross3, scl. simpl. apply v3_eq; simpl; ring. Qed.
Lemma neg_zero : neg3 vec0 = vec0.
Proof. unfold neg3, vec0. simpl. f_equal; ring. Qed.
Lemma to_world_zero p q : to_world vec0 p q = p.
Proof. unfold to_world. rewrite rotate_zero. destruct p. unfold add3, vec0. simpl. f_equal; ring. Qed.
Lemma to_world_neg c p q : to_world (neg3 c) p q = (p - rotate q c)%V.
Proof. unfold to_world. rewrite rotate_neg. generalize (rotate q c). intros [x y z]. destruct p. unfold add3, neg3, sub3. simpl. f_equal; ring. Qed.
Lemma origin_of b : body_origin b = (b_pos b - rotate (b_orn b) (com_of b))%V.
Proof.
  unfold body_origin, com_of. rewrite <- to_world_neg. destruct (b_com b); [done|]. simpl.
  by rewrite neg_zero, to_world_zero.
Qed.
Lemma zero_test com : reqb (vx com) 0 && reqb (vy com) 0 && reqb (vz com) 0 = true ↔ com = vec0.
Proof.
  rewrite !andb_true_iff, !reqb_true. split.
  - intros [[A B] C]. by apply v3_eq.
  - intros ->. done.
Qed.

(** The component of the origin agrees with the centre of mass. *)
Definition tidy (b : body) : Prop := b_origin b = match b_com b with None => None | Some _ => Some (body_origin b) end.

Lemma apply_com_ok b com : tidy b → ∃ b', apply_com b com = Ok b' ∧
  b_pos b' = to_world com (body_origin b) (b_orn b) ∧ b_orn b' = b_orn b ∧ b_ang b' = b_ang b ∧
  b_lin b' = (b_lin b + cross3 (b_ang b) (b_pos b' - b_pos b))%V ∧
  (com = vec0 → b_com b' = None) ∧ (com ≠ vec0 → b_com b' = Some com) ∧
  body_origin b' = body_origin b ∧ tidy b'.
Proof.
  intros T. unfold tidy in T.
  assert (∀ p, (p + rotate (b_orn b) com - rotate (b_orn b) com)%V = p) as R.
  { intros [x y z]. generalize (rotate (b_orn b) com). intros [x' y' z']. unfold add3, sub3. simpl. f_equal; ring. }
  assert (to_world (neg3 (default vec0 (b_com b))) (b_pos b) (b_orn b) = body_origin b) as O.
  { rewrite origin_of, to_world_neg. done. }
  unfold apply_com. rewrite O.
  destruct (reqb (vx com) 0 && reqb (vy com) 0 && reqb (vz com) 0) eqn:Z.
  - apply zero_test in Z. subst com.
    destruct (b_com b) as [c|] eqn:C.
    + eexists. split; [done|]. simpl. split_and!; try done. rewrite origin_of at 1. simpl. unfold com_of. simpl.
      rewrite <- to_world_neg, neg_zero, !to_world_zero. done.
    + eexists. split; [done|]. simpl. split_and!; try done. rewrite origin_of at 1. simpl. unfold com_of. simpl.
      rewrite <- to_world_neg, neg_zero, !to_world_zero. done.
  - assert (com ≠ vec0) as N by (intros E; apply zero_test in E; congruence).
    rewrite T. 
    destruct (b_com b) as [c|] eqn:C; eexists; (split; [done|]); simpl; split_and!; try done.
    + rewrite origin_of at 1. simpl. unfold com_of, to_world. simpl. apply R.
    + unfold tidy. simpl. f_equal. rewrite (origin_of (Body _ _ _ _ _ _)). simpl. unfold com_of, to_world. simpl. by rewrite R.
    + rewrite origin_of at 1. simpl. unfold com_of, to_world. simpl. apply R.
    + unfold tidy. simpl. f_equal. rewrite (origin_of (Body _ _ _ _ _ _)). simpl. unfold com_of, to_world. simpl. by rewrite R.
Qed.
Lemma point_velocity lin ang p p' x :
  (lin + cross3 ang (p' - p) + cross3 ang (x - p'))%V = (lin + cross3 ang (x - p))%V.
Proof. destruct lin, ang, p, p', x. unfold add3, cross3, sub3. simpl. f_equal; ring. Qed.
Lemma set_origin_ok b o : tidy b → tidy (set_origin b o) ∧ body_origin (set_origin b o) = o.
Proof.
  intros T. assert (body_origin (set_origin b o) = o) as O.
  { rewrite origin_of. unfold set_origin, com_of. destruct (b_com b) as [c|] eqn:C; simpl.
    - unfold to_world. generalize (rotate (b_orn b) c). intros [x y z]. destruct o. unfold add3, sub3. simpl. f_equal; ring.
    - rewrite <- to_world_neg, neg_zero, to_world_zero. done. }
  split; [|done]. unfold tidy in *. rewrite O. unfold set_origin. destruct (b_com b) eqn:C; simpl; [done|]. by rewrite T.
Qed.
Lemma move_tidy b pos orn lin ang : tidy b → tidy (move_body b pos orn lin ang).
Proof.
  unfold tidy, move_body. intros ->. destruct (b_com b) eqn:C; simpl; [|done]. f_equal. 
Qed.
Definition com_step (b : body) (o : com_op) : res body :=
  match o with
  | CApply com => apply_com b com
  | CSetOrigin p => Ok (set_origin b p)
  | CMove pos orn lin ang => Ok (move_body b pos orn lin ang)
  end.
Definition com_run (b : res body) (os : list com_op) : res body := foldl (λ r o, b ← r; com_step b o) b os.
Lemma run_tidy b os : tidy b → ∃ b', com_run (Ok b) os = Ok b' ∧ tidy b'.
Proof.
  revert b. induction os as [|o os IH]; intros b T; [by exists b|]. unfold com_run. simpl.
  destruct o as [com|p|pos orn lin ang]; simpl.
  - destruct (apply_com_ok b com T) as (b1 & -> & _ & _ & _ & _ & _ & _ & _ & T1). by apply IH.
  - apply IH. by apply set_origin_ok.
  - apply IH. by apply move_tidy.
Qed.
Lemma tidy_origin b : tidy b → collision_origin b = body_origin b.
Proof. unfold tidy, collision_origin. intros ->. unfold body_origin. by destruct (b_com b). Qed.
Lemma make_tidy pos orn lin ang com : ∃ b, make_body pos orn lin ang com None = Ok b ∧ tidy b ∧ body_origin b = pos.
Proof.
  unfold make_body. destruct com as [c|]; [|by eexists].
  destruct (apply_com_ok (Body pos orn lin ang None None) c eq_refl) as (b & E & _ & _ & _ & _ & _ & _ & O & T).
  exists b. split_and!; done.
Qed.
Lemma apply_twice b c1 c2 b1 : tidy b → apply_com b c1 = Ok b1 → apply_com b1 c2 = apply_com b c2.
Proof.
  intros T E1. destruct (apply_com_ok b c1 T) as (b' & E & P1 & O1 & A1 & L1 & Z1 & N1 & Or1 & T1).
  assert (b' = b1) as -> by congruence.
  destruct (apply_com_ok b1 c2 T1) as (b2 & E2 & P2 & O2 & A2 & L2 & Z2 & N2 & Or2 & T2).
  destruct (apply_com_ok b c2 T) as (b3 & E3 & P3 & O3 & A3 & L3 & Z3 & N3 & Or3 & T3).
  rewrite E2, E3. f_equal.
  assert (b_com b2 = b_com b3) as Ec.
  { destruct (reqb (vx c2) 0 && reqb (vy c2) 0 && reqb (vz c2) 0) eqn:Z.
    - apply zero_test in Z. by rewrite Z2, Z3.
    - assert (c2 ≠ vec0) by (intros X; apply zero_test in X; congruence). by rewrite N2, N3. }
  assert (b_pos b2 = b_pos b3) as Ep by (by rewrite P2, P3, Or1, O1).
  assert (b_origin b2 = b_origin b3) as Eo.
  { rewrite T2, T3, Ec. destruct (b_com b3); [|done]. by rewrite Or2, Or3, Or1. }
  assert (b_lin b2 = b_lin b3) as El.
  { rewrite L2, L3, L1, A1, Ep. apply point_velocity. }
  destruct b2 as [p2 o2 l2 a2 c2' r2'], b3 as [p3 o3 l3 a3 c3' r3']. simpl in *. congruence.
Qed.

(** * Hollow cylinders *)
Lemma diag_quad v u : dot3 u (mvec (mdiag v) u) = vx v * (vx u * vx u) + vy v * (vy u * vy u) + vz v * (vz u * vz u).
Proof. destruct u, v. unfold mdiag, mvec, dot3. simpl. ring. Qed.
Lemma hollow_ok a ri ro hl mass : 0 < ri → ri < ro → 0 < hl →
  is_inertia (s_minus (s_cylinder a ro hl) (s_cylinder a ri hl)) mass (mdiag (inertia_hollow_cylinder mass (hl * 2) ri ro a)).
Proof.
  intros P L H. split; [by destruct a|]. pose proof PI_RGT_0 as PP.
  set (vo := cylinder_volume ro (hl * 2)). set (vi := cylinder_volume ri (hl * 2)).
  pose proof (cylinder_volume_ok a ro hl ltac:(lra)) as Vo. pose proof (cylinder_volume_ok a ri hl ltac:(lra)) as Vi.
  fold vo in Vo. fold vi in Vi.
  assert (vo = PI * hl * 2 * (ro * ro)) as Eo by (unfold vo, cylinder_volume; ring).
  assert (vi = PI * hl * 2 * (ri * ri)) as Ei by (unfold vi, cylinder_volume; ring).
  assert (0 < PI * hl) as Ph by (apply Rmult_lt_0_compat; lra).
  assert (0 < vi) by (rewrite Ei; apply Rmult_lt_0_compat; [lra|nra]).
  assert (vi < vo) by (rewrite Ei, Eo; apply Rmult_lt_compat_l; [lra|nra]).
  exists (vo - vi). split; [by exists vo, vi|]. split; [lra|]. intros u.
  set (k := mass / (vo - vi)).
  destruct (cylinder_inertia_ok a ro hl (k * vo) ltac:(lra) H) as (_ & v1 & V1 & V10 & I1).
  destruct (cylinder_inertia_ok a ri hl (k * vi) P H) as (_ & v2 & V2 & V20 & I2).
  assert (v1 = vo) as -> by (eapply g_unique; [apply good_rev|exact V1|exact Vo]).
  assert (v2 = vi) as -> by (eapply g_unique; [apply good_rev|exact V2|exact Vi]).
  eexists _, _. split_and!.
  - eapply g_ext; [apply good_rev| |apply (I1 u)]. intros p. simpl. field. lra.
  - eapply g_ext; [apply good_rev| |apply (I2 u)]. intros p. simpl. field. lra.
  - rewrite !diag_quad. unfold k. rewrite Eo, Ei.
    assert (PI * hl * 2 * (ro * ro) - PI * hl * 2 * (ri * ri) ≠ 0) by lra.
    assert (ro * ro - ri * ri ≠ 0) by nra.
    destruct a; unfold inertia_hollow_cylinder, inertia_solid_cylinder, by_axis; simpl; field; repeat split; try lra; nra.
Qed.

(** * A tetrahedron *)
Definition corner : mesh :=
  Mesh [V3 0 0 0; V3 1 0 0; V3 0 1 0; V3 0 0 1] [0; 2; 1; 0; 1; 3; 0; 3; 2; 1; 2; 3]%nat [0; 3; 3; 3; 6; 3; 9; 3]%nat.
Definition corner_polys : list (list v3) :=
  [[V3 0 0 0; V3 0 1 0; V3 1 0 0]; [V3 0 0 0; V3 1 0 0; V3 0 0 1]; [V3 0 0 0; V3 0 0 1; V3 0 1 0]; [V3 1 0 0; V3 0 1 0; V3 0 0 1]].
Lemma corner_describes : describes (m_verts corner) (m_idx corner) (m_faces corner) corner_polys.
Proof.
  unfold corner_polys. simpl.
  repeat (match goal with |- describes _ _ (?f :: 3%nat :: ?fs) (?p :: ?ps) =>
    change (describes (m_verts corner) (m_idx corner) (f :: length p :: fs) (p :: ps)) end;
    constructor; [intros j v Hj; do 3 (destruct j as [|j]; [injection Hj as <-; eexists; split; reflexivity|]); done|]).
  constructor.
Qed.
Lemma corner_lengths : Forall (λ p, 3 <= length p)%nat corner_polys.
Proof. repeat constructor. Qed.
Lemma corner_closed : closed_polys corner_polys.
Proof.
  change corner_polys with ((λ p : list nat, (λ i, default vec0 (m_verts corner !! i)) <$> p) <$> [[0; 2; 1]; [0; 1; 3]; [0; 3; 2]; [1; 2; 3]]%nat).
  apply closed_fmap. simpl. solve_Permutation.
Qed.
Lemma corner_vol : vol6 corner_polys = 1.
Proof. unfold vol6, tris_of, corner_polys, triple3, dot3, cross3. simpl. ring. Qed.
Lemma corner_wrong : ∃ m' i, shift_to_centroid corner = Ok m' ∧ inertia_polyhedron 1 m' = Ok i ∧
  ∃ ps, describes (m_verts m') (m_idx m') (m_faces m') ps ∧ closed_polys ps ∧
  is_centroid (s_mesh (tris_of ps)) (1 / 6) vec0 ∧ ¬ is_inertia (s_mesh (tris_of ps)) 1 i.
Proof.
  destruct (shift_to_centroid_ok _ _ corner_describes corner_lengths corner_closed) as (m' & c & ps & E1 & E2 & E3 & D & C & G & _);
    [rewrite corner_vol; lra|].
  destruct (centroid_value _ _ corner_describes corner_lengths corner_closed) as (c' & E2' & V); [rewrite corner_vol; lra|].
  assert (c' = c) as -> by congruence.
  rewrite corner_vol in V, G.
  assert (Forall (λ p, 3 <= length p)%nat ps) as F by (subst ps; apply (shift_lengths c _ corner_lengths)).
  assert (vol6 ps = 1) as V6 by (subst ps; rewrite <- corner_vol; apply (shift_volume c _ corner_closed)).
  assert (c = V3 (1 / 4) (1 / 4) (1 / 4)) as ->.
  { pose proof (V AX) as X. pose proof (V AY) as Y. pose proof (V AZ) as Z.
    unfold tris_of, corner_polys, first_term, triple3, dot3, cross3 in X, Y, Z. simpl in X, Y, Z.
    apply v3_eq; simpl; lra. }
  destruct (polyhedron_ok 1 m' ps D F) as (i & Ei & I); [rewrite V6; lra|].
  exists m', i. split_and!; [done|done|]. exists ps. split_and!; [done|done|done|].
  intros J. pose proof (inertia_unique _ _ _ _ (good_mesh _) I J) as K.
  rewrite (polyhedron_value 1 m' ps D F) in Ei. injection Ei as <-.
  pose proof (f_equal (λ m, vy (r0 m)) K) as K1. simpl in K1. rewrite V6 in K1.
  assert (sumR (quad_term vx vy) (tris_of ps) = - (1 / 4)) as S.
  { subst ps. unfold tris_of, corner_polys, quad_term, triple3, dot3, cross3, add3, sub3. simpl. field. }
  rewrite S in K1. lra.
Qed.
