(** Meshes: volume, centroid, moments of inertia. *)
From Coquelicot Require Import Coquelicot.
From Verif Require Import Outcome BoxModel GeoModel RotSpec RotProofs MassModel MassSpec MassProofs MassProofs2.
From Coq Require Import Reals Lra Psatz.
Local Open Scope R_scope.

(** * Tetrahedra *)
Lemma simplex_poly f (k c1 c2 c3 a11 a22 a33 a12 a13 a23 : R) i :
  (∀ x y z, f x y z = k + c1 * x + c2 * y + c3 * z + a11 * (x * x) + a22 * (y * y) + a33 * (z * z)
     + a12 * (x * y) + a13 * (x * z) + a23 * (y * z)) →
  i = k / 6 + (c1 + c2 + c3) / 24 + (a11 + a22 + a33) / 60 + (a12 + a13 + a23) / 120 →
  integral3 0 1 (λ _, 0) (λ x, 1 - x) (λ _ _, 0) (λ x y, 1 - x - y) f i.
Proof.
  intros Hf Hi. repeat split; [lra|intros; lra|intros; lra|].
  exists (λ x y, let w := 1 - x - y in (k + c1 * x + c2 * y + a11 * (x * x) + a22 * (y * y) + a12 * (x * y)) * w
     + (c3 + a13 * x + a23 * y) * (w * w) / 2 + a33 * (w * w * w) / 3).
  exists (λ x, let w := 1 - x in (k + c1 * x + a11 * (x * x)) * (w * w) / 2
     + (c2 + a12 * x) * (w * w * w) / 6 + a22 * (w * w * w * w) / 12
     + (c3 + a13 * x) * (w * w * w) / 6 + a23 * (w * w * w * w) / 24 + a33 * (w * w * w * w) / 12).
  simpl. split_and!.
  - intros x y _ _.
    apply (poly_int' (k + c1 * x + c2 * y + a11 * (x * x) + a22 * (y * y) + a12 * (x * y)) (c3 + a13 * x + a23 * y) a33 0 0).
    + intros z _. rewrite Hf. ring.
    + field.
  - intros x _. set (w := 1 - x).
    apply (poly_int'
      ((k + c1 * x + a11 * (x * x)) * w + (c3 + a13 * x) * (w * w) / 2 + a33 * (w * w * w) / 3)
      (- (k + c1 * x + a11 * (x * x)) + (c2 + a12 * x) * w - (c3 + a13 * x) * w + a23 * (w * w) / 2 - a33 * (w * w))
      (- (c2 + a12 * x) + a22 * w + (c3 + a13 * x) / 2 - a23 * w + a33 * w)
      (- a22 + a23 / 2 - a33 / 3) 0).
    + intros y _. field.
    + unfold w. field.
  - apply (poly_int'
      (k / 2 + c2 / 6 + a22 / 12 + c3 / 6 + a23 / 24 + a33 / 12)
      (- k + c1 / 2 - c2 / 2 + a12 / 6 - a22 / 3 - c3 / 2 + a13 / 6 - a23 / 6 - a33 / 3)
      (k / 2 - c1 + a11 / 2 + c2 / 2 - a12 / 2 + a22 / 2 + c3 / 2 - a13 / 2 + a23 / 4 + a33 / 2)
      (c1 / 2 - a11 - c2 / 6 + a12 / 2 - a22 / 3 - c3 / 6 + a13 / 2 - a23 / 6 - a33 / 3)
      (a11 / 2 - a12 / 6 + a22 / 12 - a13 / 6 + a23 / 24 + a33 / 12)).
    + intros x _. field.
    + rewrite Hi. field.
Qed.

(** Sums over triangles. *)
Lemma mesh_int f F ts : (∀ a b c, s_tet a b c f (F (a, b, c))) → s_mesh ts f (sumR F ts).
Proof.
  intros H. exists (F <$> ts). split.
  - unfold s_mesh. induction ts as [|[[a b] c] ts IH]; constructor; [apply H|apply IH].
  - induction ts as [|t ts IH]; [done|]. simpl. f_equal. apply IH.
Qed.
Lemma mesh_volume_int ts : is_volume (s_mesh ts) (sumR (λ t, triple3 t.1.1 t.1.2 t.2) ts / 6).
Proof.
  replace (_ / 6) with (sumR (λ t : v3 * v3 * v3, triple3 t.1.1 t.1.2 t.2 / 6) ts).
  - apply mesh_int. intros a b c. exists (1 / 6). split; [|simpl; field].
    apply (simplex_poly _ 1 0 0 0 0 0 0 0 0 0); [intros; ring|field].
  - induction ts as [|t ts IH]; simpl; [field|]. rewrite IH. field.
Qed.
(** A linear coordinate. *)
Lemma mesh_first_int (f : v3 → R) ts :
  (∀ u v, f (add3 u v) = f u + f v) → (∀ s v, f (scl s v) = s * f v) →
  s_mesh ts f (sumR (λ t, triple3 t.1.1 t.1.2 t.2 * (f t.1.1 + f t.1.2 + f t.2)) ts / 24).
Proof.
  intros A S.
  replace (_ / 24) with (sumR (λ t : v3 * v3 * v3, triple3 t.1.1 t.1.2 t.2 * (f t.1.1 + f t.1.2 + f t.2) / 24) ts).
  - apply mesh_int. intros a b c. exists ((f a + f b + f c) / 24). split; [|simpl; field].
    apply (simplex_poly _ 0 (f a) (f b) (f c) 0 0 0 0 0 0); [|field].
    intros x y z. rewrite !A, !S. ring.
  - induction ts as [|t ts IH]; simpl; [field|]. rewrite IH. field.
Qed.
Definition pair_sum (f g : v3 → R) (ts : list (v3 * v3 * v3)) : R := sumR (quad_term f g) ts / 120.
Lemma mesh_pair_int (f g : v3 → R) ts :
  (∀ u v, f (add3 u v) = f u + f v) → (∀ s v, f (scl s v) = s * f v) →
  (∀ u v, g (add3 u v) = g u + g v) → (∀ s v, g (scl s v) = s * g v) →
  s_mesh ts (λ p, f p * g p) (pair_sum f g ts).
Proof.
  intros A S A' S'. unfold pair_sum.
  replace (_ / 120) with (sumR (λ t, quad_term f g t / 120) ts).
  - apply mesh_int. intros a b c. exists ((f a * g a + f b * g b + f c * g c + f (add3 (add3 a b) c) * g (add3 (add3 a b) c)) / 120).
    split; [|simpl; field]. rewrite !A, !A'.
    apply (simplex_poly _ 0 0 0 0 (f a * g a) (f b * g b) (f c * g c) (f a * g b + f b * g a) (f a * g c + f c * g a) (f b * g c + f c * g b)).
    + intros x y z. rewrite !A, !S, !A', !S'. ring.
    + field.
  - induction ts as [|t ts IH]; simpl; [field|]. rewrite IH. field.
Qed.
Lemma tet6_triple a b c : tet6 (a, b, c) = triple3 a b c.
Proof. destruct a, b, c. unfold tet6, tri_normal, triple3, dot3, cross3, sub3. simpl. ring. Qed.
Lemma sumR_ext {A} (f g : A → R) l : (∀ x, f x = g x) → sumR f l = sumR g l.
Proof. intros E. induction l as [|x l IH]; [done|]. simpl. by rewrite E, IH. Qed.
Lemma sum_tet6 ts : sumR tet6 ts = sumR (λ t : v3 * v3 * v3, triple3 t.1.1 t.1.2 t.2) ts.
Proof. apply sumR_ext. intros [[a b] c]. apply tet6_triple. Qed.

Definition add_x u v : vx (add3 u v) = vx u + vx v := eq_refl.
Definition add_y u v : vy (add3 u v) = vy u + vy v := eq_refl.
Definition add_z u v : vz (add3 u v) = vz u + vz v := eq_refl.
Definition scl_x s v : vx (scl s v) = s * vx v := eq_refl.
Definition scl_y s v : vy (scl s v) = s * vy v := eq_refl.
Definition scl_z s v : vz (scl s v) = s * vz v := eq_refl.

(** The tensor of a mesh about the origin. *)
Definition mesh_tensor (mass : R) (ts : list (v3 * v3 * v3)) : mat :=
  let r := mass / (sumR (λ t : v3 * v3 * v3, triple3 t.1.1 t.1.2 t.2) ts / 6) in
  let xx := pair_sum vx vx ts in let yy := pair_sum vy vy ts in let zz := pair_sum vz vz ts in
  let xy := pair_sum vx vy ts in let yz := pair_sum vy vz ts in let zx := pair_sum vz vx ts in
  Mat (V3 ((yy + zz) * r) (- (xy * r)) (- (zx * r)))
      (V3 (- (xy * r)) ((zz + xx) * r) (- (yz * r)))
      (V3 (- (zx * r)) (- (yz * r)) ((xx + yy) * r)).
Lemma mesh_inertia_int mass ts : sumR (λ t : v3 * v3 * v3, triple3 t.1.1 t.1.2 t.2) ts ≠ 0 →
  is_inertia (s_mesh ts) mass (mesh_tensor mass ts).
Proof.
  intros V0. split; [done|].
  exists (sumR (λ t, triple3 t.1.1 t.1.2 t.2) ts / 6). split; [apply mesh_volume_int|].
  split; [lra|]. intros [u1 u2 u3]. set (r := mass / _).
  pose proof (good_mesh ts) as G.
  pose proof (mesh_pair_int vx vx ts add_x scl_x add_x scl_x) as Ixx.
  pose proof (mesh_pair_int vy vy ts add_y scl_y add_y scl_y) as Iyy.
  pose proof (mesh_pair_int vz vz ts add_z scl_z add_z scl_z) as Izz.
  pose proof (mesh_pair_int vx vy ts add_x scl_x add_y scl_y) as Ixy.
  pose proof (mesh_pair_int vy vz ts add_y scl_y add_z scl_z) as Iyz.
  pose proof (mesh_pair_int vz vx ts add_z scl_z add_x scl_x) as Izx.
  pose proof (g_lin _ G _ _ _ _ (r * (u2 * u2 + u3 * u3)) (r * (u1 * u1 + u3 * u3)) Ixx Iyy) as J1.
  pose proof (g_lin _ G _ _ _ _ (r * (u1 * u1 + u2 * u2)) (- (r * (2 * u1 * u2))) Izz Ixy) as J2.
  pose proof (g_lin _ G _ _ _ _ (- (r * (2 * u2 * u3))) (- (r * (2 * u1 * u3))) Iyz Izx) as J3.
  pose proof (g_lin _ G _ _ _ _ 1 1 J1 J2) as J4.
  pose proof (g_lin _ G _ _ _ _ 1 1 J4 J3) as J5.
  cbv beta in J5.
  match type of J5 with s_mesh ts _ ?e => replace (dot3 _ _) with e end.
  - eapply g_ext; [done| |exact J5]. intros [p1 p2 p3]. unfold lsq, dot3, cross3. simpl. ring.
  - unfold mesh_tensor. fold r. unfold dot3, mvec, dot3. simpl. ring.
Qed.

(** * The face table *)
Lemma vert_ok m i k v : m_idx m !! i = Some k → m_verts m !! k = Some v → vert m i = Ok v.
Proof. intros A B. unfold vert. rewrite A. simpl. by rewrite B. Qed.
Lemma fan_ok m first v0 p j n : length p = S n →
  (∀ k v, p !! k = Some v → ∃ i, m_idx m !! (first + (j + k))%nat = Some i ∧ m_verts m !! i = Some v) →
  fan m first v0 j n = Ok ((λ e, (v0, e.1, e.2)) <$> path_edges p).
Proof.
  revert p j. induction n as [|n IH]; intros p j L H; destruct p as [|a p]; try done.
  - by destruct p.
  - destruct p as [|b p]; [done|]. simpl.
    destruct (H 0%nat a eq_refl) as (i & I1 & I2). destruct (H 1%nat b eq_refl) as (i' & I1' & I2').
    rewrite Nat.add_0_r in I1. rewrite (vert_ok _ _ _ _ I1 I2). simpl.
    replace (first + j + 1)%nat with (first + (j + 1))%nat by lia. rewrite (vert_ok _ _ _ _ I1' I2'). simpl.
    rewrite (IH (b :: p) (S j)); [done|simpl in *; lia|].
    intros k v Hk. destruct (H (S k) v Hk) as (x & X1 & X2). exists x. split; [|done]. by replace (first + (S j + k))%nat with (first + (j + S k))%nat by lia.
Qed.
Local Arguments fan : simpl never.
Lemma tris_ok m ps : describes (m_verts m) (m_idx m) (m_faces m) ps → Forall (λ p, 3 <= length p)%nat ps →
  mesh_tris m = Ok (ps ≫= polygon_tris).
Proof.
  unfold mesh_tris. generalize (m_faces m). intros fs D F. induction D as [|first p fs ps H D IH]; [done|].
  inversion F as [|? ? L F']; subst.
  destruct p as [|v0 [|v1 [|v2 p]]]; try (simpl in L; lia).
  destruct (H 0%nat v0 eq_refl) as (i & I1 & I2). rewrite Nat.add_0_r in I1.
  pose proof (fan_ok m first v0 (v1 :: v2 :: p) 1 (length (v2 :: p)) eq_refl) as Hf.
  simpl. rewrite (vert_ok _ _ _ _ I1 I2). simpl.
  change (fan m first v0 1 (S (length p))) with (fan m first v0 1 (length (v2 :: p))). rewrite Hf.
  - simpl. rewrite (IH F'). done.
  - intros k v Hk. exact (H (S k) v Hk).
Qed.

(** * Closed meshes *)
Definition edge_sum (G : v3 → v3 → R) (es : list (v3 * v3)) : R := sumR (λ e, G e.1 e.2) es.
Lemma sumR_app {A} (f : A → R) l k : sumR f (l ++ k) = sumR f l + sumR f k.
Proof. induction l as [|x l IH]; simpl; [ring|]. rewrite IH. ring. Qed.
Lemma sumR_perm {A} (f : A → R) l k : l ≡ₚ k → sumR f l = sumR f k.
Proof. induction 1; simpl; try lra. Qed.
Lemma sumR_fmap {A B} (f : B → R) (g : A → B) l : sumR f (g <$> l) = sumR (λ x, f (g x)) l.
Proof. induction l as [|x l IH]; [done|]. simpl. f_equal. exact IH. Qed.
Lemma sumR_opp {A} (f : A → R) l : sumR (λ x, - f x) l = - sumR f l.
Proof. induction l as [|x l IH]; simpl; [ring|]. rewrite IH. ring. Qed.
Lemma sumR_add {A} (f g : A → R) l : sumR (λ x, f x + g x) l = sumR f l + sumR g l.
Proof. induction l as [|x l IH]; simpl; [ring|]. rewrite IH. ring. Qed.
Lemma sumR_scale {A} (c : R) (f : A → R) l : sumR (λ x, c * f x) l = c * sumR f l.
Proof. induction l as [|x l IH]; simpl; [ring|]. rewrite IH. ring. Qed.
Definition cyc (G : v3 → v3 → R) (t : v3 * v3 * v3) : R := G t.1.1 t.1.2 + G t.1.2 t.2 + G t.2 t.1.1.
Lemma fan_edges G v0 p b : (∀ x y, G y x = - G x y) →
  sumR (cyc G) ((λ e, (v0, e.1, e.2)) <$> path_edges (b :: p)) =
  G v0 b + edge_sum G (path_edges (b :: p ++ v0 :: nil)).
Proof.
  intros A. revert b. induction p as [|c p IH]; intros b.
  - simpl. unfold edge_sum. simpl. pose proof (A v0 b). lra.
  - change (path_edges (b :: (c :: p) ++ v0 :: nil)) with ((b, c) :: path_edges (c :: p ++ v0 :: nil)).
    change (path_edges (b :: c :: p)) with ((b, c) :: path_edges (c :: p)).
    unfold edge_sum in *. simpl. simpl in IH. rewrite IH. unfold cyc. simpl. pose proof (A c v0). lra.
Qed.
Lemma poly_cyc G p : (∀ x y, G y x = - G x y) → sumR (cyc G) (polygon_tris p) = edge_sum G (cycle_edges p).
Proof.
  intros A. destruct p as [|v0 [|b p]]; [done| |].
  - unfold edge_sum. simpl. pose proof (A v0 v0). lra.
  - unfold polygon_tris. rewrite fan_edges by done. done.
Qed.
Lemma closed_zero G ps : (∀ x y, G y x = - G x y) → closed_polys ps → sumR (cyc G) (ps ≫= polygon_tris) = 0.
Proof.
  intros A C.
  assert (sumR (cyc G) (ps ≫= polygon_tris) = edge_sum G (ps ≫= cycle_edges)) as ->.
  { clear C. induction ps as [|p ps IH]; [done|]. rewrite !bind_cons. unfold edge_sum in *. rewrite !sumR_app, IH, poly_cyc by done. done. }
  pose proof (sumR_perm (λ e, G e.1 e.2) _ _ C) as E. rewrite sumR_fmap in E. simpl in E.
  rewrite (sumR_ext (λ x : v3 * v3, G x.2 x.1) (λ x, - G x.1 x.2)) in E by (intros; apply A).
  rewrite sumR_opp in E. unfold edge_sum. lra.
Qed.
Lemma closed_eq G F F' ps : (∀ x y, G y x = - G x y) →
  (∀ a b c, F (a, b, c) = F' (a, b, c) + cyc G (a, b, c)) → closed_polys ps →
  sumR F (ps ≫= polygon_tris) = sumR F' (ps ≫= polygon_tris).
Proof.
  intros A E C. rewrite (sumR_ext F (λ t, F' t + cyc G t)) by (by intros [[a b] c]).
  rewrite sumR_add, (closed_zero G) by done. ring.
Qed.

(** The sums of the code are, on closed meshes, those over tetrahedra. *)
Definition coord (a : axis) (v : v3) : R := match a with AX => vx v | AY => vy v | AZ => vz v end.
Definition first_term (a : axis) (t : v3 * v3 * v3) : R :=
  triple3 t.1.1 t.1.2 t.2 * (coord a t.1.1 + coord a t.1.2 + coord a t.2).
Lemma centroid_first a ps : closed_polys ps →
  sumR (λ t, coord a (centroid_term t)) (ps ≫= polygon_tris) = 2 * sumR (first_term a) (ps ≫= polygon_tris).
Proof.
  intros C. rewrite <- sumR_scale.
  apply (closed_eq (λ u v, 2 * coord a (cross3 u v) * (coord a u * coord a u + coord a u * coord a v + coord a v * coord a v))); [| |done].
  - intros [x1 x2 x3] [y1 y2 y3]. destruct a; unfold coord, cross3; simpl; ring.
  - intros [x1 x2 x3] [y1 y2 y3] [z1 z2 z3].
    destruct a; unfold first_term, cyc, coord, centroid_term, tri_normal, lsq, triple3, dot3, cross3, mul3, sub3; simpl; ring.
Qed.
Lemma sumV_coord a {A} (f : A → v3) l : coord a (sumV f l) = sumR (λ x, coord a (f x)) l.
Proof. induction l as [|x l IH]; [by destruct a|]. simpl. rewrite <- IH. by destruct a. Qed.
