(** Meshes, compounds, capsules and the centre of mass. *)
From Coquelicot Require Import Coquelicot.
From Verif Require Import Outcome BoxModel GeoModel RotSpec RotProofs MassModel MassSpec MassProofs MassProofs2 MassProofs3.
From Coq Require Import Reals Lra Psatz.
Local Open Scope R_scope.

(** * Meshes *)
Definition tris_of (ps : list (list v3)) : list (v3 * v3 * v3) := ps ≫= polygon_tris.
Definition vol6 (ps : list (list v3)) : R := sumR (λ t : v3 * v3 * v3, triple3 t.1.1 t.1.2 t.2) (tris_of ps).

Lemma mesh_volume_ok m ps : describes (m_verts m) (m_idx m) (m_faces m) ps → Forall (λ p, 3 <= length p)%nat ps →
  ∃ v, mesh_volume m = Ok v ∧ is_volume (s_mesh (tris_of ps)) v ∧ v = vol6 ps / 6.
Proof.
  intros D F. exists (vol6 ps / 6). split_and!; [|apply mesh_volume_int|done].
  unfold mesh_volume. rewrite (tris_ok m ps) by done. simpl. by rewrite sum_tet6.
Qed.

Lemma centroid_value m ps : describes (m_verts m) (m_idx m) (m_faces m) ps → Forall (λ p, 3 <= length p)%nat ps →
  closed_polys ps → vol6 ps ≠ 0 →
  ∃ c, mesh_centroid m = Ok c ∧ ∀ a, vol6 ps / 6 * coord a c = sumR (first_term a) (tris_of ps) / 24.
Proof.
  intros D F C V. unfold mesh_centroid. rewrite (tris_ok m ps) by done. simpl. eexists. split; [done|]. intros a.
  assert (∀ s v, coord a (scl s v) = s * coord a v) as -> by (by destruct a).
  rewrite sumV_coord, centroid_first, sum_tet6 by done. fold (tris_of ps). fold (vol6 ps). field. done.
Qed.
Lemma first_int a ts : s_mesh ts (coord a) (sumR (first_term a) ts / 24).
Proof. apply mesh_first_int; by destruct a. Qed.
Lemma mesh_centroid_ok m ps : describes (m_verts m) (m_idx m) (m_faces m) ps → Forall (λ p, 3 <= length p)%nat ps →
  closed_polys ps → vol6 ps ≠ 0 →
  ∃ c, mesh_centroid m = Ok c ∧ is_centroid (s_mesh (tris_of ps)) (vol6 ps / 6) c.
Proof.
  intros D F C V. destruct (centroid_value m ps D F C V) as (c & Hc & E). exists c. split; [done|].
  split; [apply mesh_volume_int|]. split_and!.
  - specialize (E AX). simpl in E. rewrite E. apply (first_int AX).
  - specialize (E AY). simpl in E. rewrite E. apply (first_int AY).
  - specialize (E AZ). simpl in E. rewrite E. apply (first_int AZ).
Qed.

(** Translation. *)
Definition shift_polys (d : v3) (ps : list (list v3)) : list (list v3) := (λ p : list v3, (λ v, sub3 v d) <$> p) <$> ps.
Lemma path_edges_fmap {A B} (f : A → B) l : path_edges (f <$> l) = (λ e, (f e.1, f e.2)) <$> path_edges l.
Proof.
  induction l as [|a l IH]; [done|]. destruct l as [|b l]; [done|].
  change (path_edges (f <$> a :: b :: l)) with ((f a, f b) :: path_edges (f <$> b :: l)). by rewrite IH.
Qed.
Lemma cycle_edges_fmap {A B} (f : A → B) l : cycle_edges (f <$> l) = (λ e, (f e.1, f e.2)) <$> cycle_edges l.
Proof.
  destruct l as [|a l]; [done|]. unfold cycle_edges. rewrite <- path_edges_fmap, fmap_app. done.
Qed.
Lemma polygon_tris_fmap f p : polygon_tris (f <$> p) = (λ t, (f t.1.1, f t.1.2, f t.2)) <$> polygon_tris p.
Proof.
  destruct p as [|v p]; [done|]. unfold polygon_tris. simpl. rewrite path_edges_fmap, <- !list_fmap_compose. done.
Qed.
Lemma bind_fmap_gen {A A' B B'} (f : A → A') (g : A' → list B') (h : A → list B) (k : B → B') l :
  (∀ x, g (f x) = k <$> h x) → (f <$> l) ≫= g = k <$> (l ≫= h).
Proof. intros E. induction l as [|x l IH]; [done|]. rewrite fmap_cons, !bind_cons, fmap_app, IH, E. done. Qed.
Lemma shift_closed d ps : closed_polys ps → closed_polys (shift_polys d ps).
Proof.
  unfold closed_polys, shift_polys. intros C.
  rewrite (bind_fmap_gen _ _ cycle_edges (λ e, (sub3 e.1 d, sub3 e.2 d))) by (intros; apply (cycle_edges_fmap (λ v, sub3 v d))).
  rewrite C at 1. rewrite <- !list_fmap_compose. done.
Qed.
Lemma shift_tris d ps : tris_of (shift_polys d ps) = (λ t, (sub3 t.1.1 d, sub3 t.1.2 d, sub3 t.2 d)) <$> tris_of ps.
Proof. unfold tris_of, shift_polys. apply bind_fmap_gen. intros p. apply (polygon_tris_fmap (λ v, sub3 v d)). Qed.
Lemma shift_volume d ps : closed_polys ps → vol6 (shift_polys d ps) = vol6 ps.
Proof.
  intros C. unfold vol6. rewrite shift_tris, sumR_fmap.
  apply (closed_eq (λ u v, - dot3 d (cross3 u v))); [| |done].
  - intros [x1 x2 x3] [y1 y2 y3]. unfold dot3, cross3. simpl. ring.
  - intros [x1 x2 x3] [y1 y2 y3] [z1 z2 z3]. destruct d as [d1 d2 d3]. unfold cyc, triple3, dot3, cross3, sub3. simpl. ring.
Qed.
Lemma normal_flux a ps : closed_polys ps →
  sumR (λ t, coord a (tri_normal t)) (tris_of ps) = 0.
Proof.
  intros C. rewrite <- (closed_zero (λ u v, coord a (cross3 u v)) ps); [| |done].
  - apply sumR_ext. intros [[[x1 x2 x3] [y1 y2 y3]] [z1 z2 z3]].
    destruct a; unfold cyc, coord, tri_normal, cross3, sub3; simpl; ring.
  - intros [x1 x2 x3] [y1 y2 y3]. destruct a; unfold coord, cross3; simpl; ring.
Qed.
Lemma linear_flux a ps : closed_polys ps →
  sumR (λ t : v3 * v3 * v3, coord a (tri_normal t) * (coord a t.1.1 + coord a t.1.2 + coord a t.2)) (tris_of ps) = vol6 ps.
Proof.
  intros C. unfold vol6, tris_of.
  apply (closed_eq (λ u v, (coord a u + coord a v) * coord a (cross3 u v))); [| |done].
  - intros [x1 x2 x3] [y1 y2 y3]. destruct a; unfold coord, cross3; simpl; ring.
  - intros [x1 x2 x3] [y1 y2 y3] [z1 z2 z3].
    destruct a; unfold cyc, coord, tri_normal, triple3, dot3, cross3, sub3; simpl; ring.
Qed.
Lemma shift_first a d ps : closed_polys ps →
  sumR (first_term a) (tris_of (shift_polys d ps)) = sumR (first_term a) (tris_of ps) - 4 * coord a d * vol6 ps.
Proof.
  intros C.
  assert (∀ qs, closed_polys qs → sumR (λ t, coord a (centroid_term t)) (tris_of qs) = 2 * sumR (first_term a) (tris_of qs)) as E0
    by (intros qs; apply centroid_first).
  pose proof (E0 _ (shift_closed d ps C)) as E. pose proof (E0 _ C) as E'. clear E0.
  enough (sumR (λ t, coord a (centroid_term t)) (tris_of (shift_polys d ps)) =
    sumR (λ t, coord a (centroid_term t)) (tris_of ps) - 8 * coord a d * vol6 ps) by lra.
  rewrite shift_tris, sumR_fmap.
  rewrite <- (linear_flux a ps C).
  replace (sumR (λ t, coord a (centroid_term t)) (tris_of ps)) with
    (sumR (λ t, coord a (centroid_term t)) (tris_of ps) + 12 * (coord a d * coord a d) * sumR (λ t, coord a (tri_normal t)) (tris_of ps))
    by (rewrite normal_flux by done; ring).
  rewrite <- !sumR_scale. unfold Rminus. rewrite <- sumR_opp, <- !sumR_add. apply sumR_ext.
  intros [[[x1 x2 x3] [y1 y2 y3]] [z1 z2 z3]]. destruct d as [d1 d2 d3].
  destruct a; unfold coord, centroid_term, tri_normal, lsq, dot3, cross3, mul3, sub3; simpl; ring.
Qed.
Lemma shift_describes d vs idx fs ps : describes vs idx fs ps →
  describes ((λ v, sub3 v d) <$> vs) idx fs (shift_polys d ps).
Proof.
  induction 1 as [|first p fs ps H D IH]; [constructor|].
  change (shift_polys d (p :: ps)) with (((λ v, sub3 v d) <$> p) :: shift_polys d ps).
  rewrite <- (fmap_length (λ v, sub3 v d) p) at 1. constructor; [|done].
  intros j v Hj. rewrite list_lookup_fmap in Hj. apply fmap_Some in Hj as (w & Hw & ->). destruct (H j w Hw) as (i & I1 & I2).
  exists i. split; [done|]. by rewrite list_lookup_fmap, I2.
Qed.
Lemma shift_lengths d ps : Forall (λ p, 3 <= length p)%nat ps → Forall (λ p, 3 <= length p)%nat (shift_polys d ps).
Proof. intros F. apply Forall_fmap. eapply Forall_impl; [exact F|]. intros p. simpl. by rewrite fmap_length. Qed.
Lemma shift_to_centroid_ok m ps : describes (m_verts m) (m_idx m) (m_faces m) ps → Forall (λ p, 3 <= length p)%nat ps →
  closed_polys ps → vol6 ps ≠ 0 →
  ∃ m' c ps', shift_to_centroid m = Ok m' ∧ mesh_centroid m = Ok c ∧
    ps' = (λ p : list v3, (λ v, (v - c)%V) <$> p) <$> ps ∧
    describes (m_verts m') (m_idx m') (m_faces m') ps' ∧ closed_polys ps' ∧
    is_centroid (s_mesh (tris_of ps')) (vol6 ps / 6) vec0 ∧ mesh_centroid m' = Ok vec0.
Proof.
  intros D F C V. destruct (centroid_value m ps D F C V) as (c & Hc & E).
  exists (Mesh ((λ v, sub3 v c) <$> m_verts m) (m_idx m) (m_faces m)), c, (shift_polys c ps).
  unfold shift_to_centroid. rewrite Hc. simpl. split; [done|]. split; [done|]. split; [done|].
  pose proof (shift_describes c _ _ _ _ D) as D'. pose proof (shift_closed c ps C) as C'.
  split; [done|]. split; [done|].
  assert (∀ a, sumR (first_term a) (tris_of (shift_polys c ps)) = 0) as Z.
  { intros a. rewrite shift_first by done. pose proof (E a). lra. }
  split.
  - rewrite <- (shift_volume c ps C). split; [apply mesh_volume_int|].
    split_and!; simpl; rewrite Rmult_0_r; replace 0 with (0 / 24) by field.
    + rewrite <- (Z AX). apply (first_int AX).
    + rewrite <- (Z AY). apply (first_int AY).
    + rewrite <- (Z AZ). apply (first_int AZ).
  - destruct (centroid_value (Mesh ((λ v, sub3 v c) <$> m_verts m) (m_idx m) (m_faces m)) (shift_polys c ps)) as (c' & Hc' & E');
      [done|by apply shift_lengths|done|by rewrite shift_volume|].
    rewrite Hc'. f_equal. rewrite shift_volume in E' by done.
    assert (∀ a, coord a c' = 0) as Zc.
    { intros a. pose proof (E' a) as Ea. rewrite Z in Ea. assert (vol6 ps / 6 * coord a c' = 0) as Em by lra.
      apply Rmult_integral in Em as [Em|Em]; [lra|done]. }
    apply v3_eq; [apply (Zc AX)|apply (Zc AY)|apply (Zc AZ)].
Qed.

(** The tensor of the code has the products of inertia with the wrong sign. *)
Lemma polyhedron_ok mass m ps : describes (m_verts m) (m_idx m) (m_faces m) ps → Forall (λ p, 3 <= length p)%nat ps →
  vol6 ps ≠ 0 → ∃ i, inertia_polyhedron mass m = Ok i ∧ is_inertia (s_mesh (tris_of ps)) mass (flip_off i).
Proof.
  intros D F V. eexists. split.
  - unfold inertia_polyhedron. rewrite (tris_ok m ps) by done. simpl. reflexivity.
  - match goal with |- is_inertia _ _ ?x => replace x with (mesh_tensor mass (tris_of ps)) end.
    + by apply mesh_inertia_int.
    + unfold mesh_tensor, flip_off. simpl. fold (tris_of ps). unfold pair_sum. f_equal; f_equal; field; exact V.
Qed.
