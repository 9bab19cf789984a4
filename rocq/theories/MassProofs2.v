(** Linearity and uniqueness of the integrals, moved solids, compounds. *)
From Coquelicot Require Import Coquelicot.
From Verif Require Import Outcome BoxModel GeoModel RotSpec RotProofs MassModel MassSpec MassProofs.
From Coq Require Import Reals Lra Psatz.
Local Open Scope R_scope.

(** * Integrals are unique and linear *)
Record good (s : solid) : Prop := Good {
  g_ext f g i : (∀ p, f p = g p) → s f i → s g i;
  g_unique f i j : s f i → s f j → i = j;
  g_lin f g i j (α β : R) : s f i → s g j → s (λ p, α * f p + β * g p) (α * i + β * j);
}.

Lemma int3_ext x0 x1 y0 y1 z0 z1 f g i : (∀ x y z, f x y z = g x y z) →
  integral3 x0 x1 y0 y1 z0 z1 f i → integral3 x0 x1 y0 y1 z0 z1 g i.
Proof.
  intros E (H1 & H2 & H3 & u & w & I1 & I2 & I3). repeat split; [done..|].
  exists u, w. split_and!; try done. intros x y Hx Hy. eapply is_RInt_ext; [|by apply I1]. intros z _. apply E.
Qed.
Lemma int3_unique x0 x1 y0 y1 z0 z1 f i j :
  integral3 x0 x1 y0 y1 z0 z1 f i → integral3 x0 x1 y0 y1 z0 z1 f j → i = j.
Proof.
  intros (H1 & H2 & H3 & u & w & I1 & I2 & I3) (_ & _ & _ & u' & w' & J1 & J2 & J3).
  assert (∀ x y, x0 <= x <= x1 → y0 x <= y <= y1 x → u x y = u' x y) as Eu.
  { intros x y Hx Hy. rewrite <- (is_RInt_unique _ _ _ _ (I1 x y Hx Hy)). apply (is_RInt_unique _ _ _ _ (J1 x y Hx Hy)). }
  assert (∀ x, x0 <= x <= x1 → w x = w' x) as Ew.
  { intros x Hx. rewrite <- (is_RInt_unique _ _ _ _ (I2 x Hx)), <- (is_RInt_unique _ _ _ _ (J2 x Hx)).
    apply RInt_ext. intros y Hy. rewrite Rmin_left, Rmax_right in Hy by by apply H2. apply Eu; [done|lra]. }
  rewrite <- (is_RInt_unique _ _ _ _ I3), <- (is_RInt_unique _ _ _ _ J3).
  apply RInt_ext. intros y Hy. rewrite Rmin_left, Rmax_right in Hy by done. apply Ew; lra.
Qed.
Lemma int3_lin x0 x1 y0 y1 z0 z1 f g i j α β :
  integral3 x0 x1 y0 y1 z0 z1 f i → integral3 x0 x1 y0 y1 z0 z1 g j →
  integral3 x0 x1 y0 y1 z0 z1 (λ x y z, α * f x y z + β * g x y z) (α * i + β * j).
Proof.
  intros (H1 & H2 & H3 & u & w & I1 & I2 & I3) (_ & _ & _ & u' & w' & J1 & J2 & J3). repeat split; [done..|].
  exists (λ x y, α * u x y + β * u' x y), (λ x, α * w x + β * w' x).
  split_and!.
  - intros x y Hx Hy. apply (is_RInt_plus (V := R_NormedModule)); apply (is_RInt_scal (V := R_NormedModule)); auto.
  - intros x Hx. apply (is_RInt_plus (V := R_NormedModule)); apply (is_RInt_scal (V := R_NormedModule)); auto.
  - apply (is_RInt_plus (V := R_NormedModule)); apply (is_RInt_scal (V := R_NormedModule)); auto.
Qed.
Lemma good_int3 x0 x1 y0 y1 z0 z1 (h : R → R → R → v3) :
  good (λ f i, integral3 x0 x1 y0 y1 z0 z1 (λ x y z, f (h x y z)) i).
Proof.
  split.
  - intros f g i E. apply int3_ext. intros. apply E.
  - intros f i j. apply int3_unique.
  - intros f g i j α β I J. by apply (int3_lin _ _ _ _ _ _ (λ x y z, f (h x y z)) (λ x y z, g (h x y z))).
Qed.
Lemma good_box h : good (s_box h).
Proof. apply good_int3. Qed.
Lemma good_rev a lo hi r2 : good (s_revolved a lo hi r2).
Proof. apply good_int3. Qed.
Lemma good_tet a b c : good (s_tet a b c).
Proof.
  pose proof (good_int3 0 1 (λ _, 0) (λ x, 1 - x) (λ _ _, 0) (λ x y, 1 - x - y) (λ x y z, (x * a + y * b + z * c)%V)) as [G1 G2 G3].
  split.
  - intros f g i E (j & I & ->). exists j. split; [|done]. eapply G1; [|exact I]. done.
  - intros f i j (i' & I & ->) (j' & J & ->). f_equal. by eapply G2.
  - intros f g i j α β (i' & I & ->) (j' & J & ->). exists (α * i' + β * j'). split; [|ring].
    exact (G3 f g i' j' α β I J).
Qed.
Lemma good_sum ss : Forall good ss → good (s_sum ss).
Proof.
  intros G. split.
  - intros f g i E (l & F & ->). exists l. split; [|done]. revert G. induction F; inversion 1; subst; constructor; auto.
    by eapply g_ext.
  - intros f i j (l & F & ->) (l' & F' & ->). revert l' F'. revert G. induction F as [|s i0 ss l S F IH]; intros G l' F'.
    + by inversion F'.
    + inversion F' as [|? j0 ? l'' S' F'']; subst. inversion G; subst. simpl. f_equal; [by eapply g_unique|by apply IH].
  - intros f g i j α β (l & F & ->) (l' & F' & ->). revert l' F'. revert G. induction F as [|s i0 ss l S F IH]; intros G l' F'.
    + inversion F'; subst. exists nil. split; [constructor|]. simpl. ring.
    + inversion F' as [|? j0 ? l'' S' F'']; subst. inversion G; subst.
      destruct (IH ltac:(done) _ F'') as (l3 & F3 & E3). exists ((α * i0 + β * j0) :: l3). split.
      * constructor; [|done]. by apply g_lin.
      * simpl. rewrite <- E3. ring.
Qed.
Lemma good_mesh ts : good (s_mesh ts).
Proof. apply good_sum. apply Forall_fmap, Forall_true. intros t. exact (good_tet t.1.1 t.1.2 t.2). Qed.
Lemma good_moved q p s : good s → good (s_moved q p s).
Proof.
  intros [G1 G2 G3]. split.
  - intros f g i E. apply G1. intros x. apply E.
  - intros f. apply G2.
  - intros f g i j α β I J. exact (G3 _ _ _ _ α β I J).
Qed.
Lemma good_minus s t : good s → good t → good (s_minus s t).
Proof.
  intros [G1 G2 G3] [H1 H2 H3]. split.
  - intros f g i E (j & k & J & K & ->). exists j, k. eauto.
  - intros f i j (i1 & i2 & I1 & I2 & ->) (j1 & j2 & J1 & J2 & ->). f_equal; eauto.
  - intros f g i j α β (i1 & i2 & I1 & I2 & ->) (j1 & j2 & J1 & J2 & ->).
    exists (α * i1 + β * j1), (α * i2 + β * j2). split; [by apply G3|]. split; [by apply H3|]. ring.
Qed.

(** A symmetric tensor is determined by its moments. *)
Lemma quad_inj i j : mtrans i = i → mtrans j = j → (∀ u, dot3 u (mvec i u) = dot3 u (mvec j u)) → i = j.
Proof.
  destruct i as [[a b c] [d e f] [g h k]], j as [[a' b' c'] [d' e' f'] [g' h' k']].
  unfold mtrans, col0, col1, col2. simpl. intros Hi Hj H. injection Hi as ? ? ? ? ? ?. injection Hj as ? ? ? ? ? ?. subst. clear - H.
  pose proof (H (V3 1 0 0)) as H1. pose proof (H (V3 0 1 0)) as H2. pose proof (H (V3 0 0 1)) as H3.
  pose proof (H (V3 1 1 0)) as H4. pose proof (H (V3 1 0 1)) as H5. pose proof (H (V3 0 1 1)) as H6.
  unfold dot3, mvec, dot3 in *. simpl in *. f_equal; f_equal; lra.
Qed.
Lemma inertia_unique s m i j : good s → is_inertia s m i → is_inertia s m j → i = j.
Proof.
  intros G (Si & v & V & V0 & I) (Sj & v' & V' & V0' & J). apply quad_inj; [done..|]. intros u.
  assert (v = v') as <- by (by eapply g_unique). by eapply g_unique.
Qed.

(** * Moving a solid *)
Lemma mmul_vec m n v : mvec (mmul m n) v = mvec m (mvec n v).
Proof.
  destruct m as [[a b c] [d e f] [g h k]], n as [[a' b' c'] [d' e' f'] [g' h' k']], v as [x y z].
  unfold mmul, mvec, col0, col1, col2, dot3. simpl. f_equal; ring.
Qed.
Lemma mtrans_dot m u v : dot3 u (mvec m v) = dot3 (mvec (mtrans m) u) v.
Proof.
  destruct m as [[a b c] [d e f] [g h k]], u as [x y z], v as [x' y' z'].
  unfold mvec, mtrans, col0, col1, col2, dot3. simpl. ring.
Qed.
Lemma mtrans_mmul m n : mtrans (mmul m n) = mmul (mtrans n) (mtrans m).
Proof.
  destruct m as [[a b c] [d e f] [g h k]], n as [[a' b' c'] [d' e' f'] [g' h' k']].
  unfold mmul, mtrans, col0, col1, col2, dot3. simpl. f_equal; f_equal; ring.
Qed.
Lemma mtrans_inv m : mtrans (mtrans m) = m.
Proof. by destruct m as [[a b c] [d e f] [g h k]]. Qed.
Lemma mvec_madd m n u : mvec (madd m n) u = add3 (mvec m u) (mvec n u).
Proof. destruct m as [[a b c] [d e f] [g h k]], n as [[a' b' c'] [d' e' f'] [g' h' k']], u as [x y z].
  unfold madd, mvec, add3, dot3. simpl. f_equal; ring. Qed.
Lemma mvec_mscale s m u : mvec (mscale s m) u = scl s (mvec m u).
Proof. destruct m as [[a b c] [d e f] [g h k]], u as [x y z]. unfold mscale, mvec, scl, dot3. simpl. f_equal; ring. Qed.
Lemma mvec_skew p u : mvec (skew p) u = cross3 p u.
Proof. destruct p as [a b c], u as [x y z]. unfold skew, mvec, cross3, dot3. simpl. f_equal; ring. Qed.
Lemma dot_add_r u v w : dot3 u (add3 v w) = dot3 u v + dot3 u w.
Proof. destruct u, v, w. unfold dot3, add3. simpl. ring. Qed.
Lemma dot_scl_r u s v : dot3 u (scl s v) = s * dot3 u v.
Proof. destruct u, v. unfold dot3, scl. simpl. ring. Qed.
Lemma cross_swap_lsq u p : lsq (cross3 p u) = lsq (cross3 u p).
Proof. destruct u as [a b c], p as [x y z]. unfold lsq, cross3, dot3. simpl. ring. Qed.
Lemma shift_quad u i m p : dot3 u (mvec (shift_inertia i m p) u) = dot3 u (mvec i u) + m * lsq (cross3 u p).
Proof.
  unfold shift_inertia. rewrite mvec_madd, mvec_mscale, mmul_vec, dot_add_r, dot_scl_r, (mtrans_dot (mtrans (skew p))), mtrans_inv, mvec_skew.
  by rewrite <- cross_swap_lsq.
Qed.
Lemma mtrans_madd m n : mtrans (madd m n) = madd (mtrans m) (mtrans n).
Proof. by destruct m as [[a b c] [d e f] [g h k]], n as [[a' b' c'] [d' e' f'] [g' h' k']]. Qed.
Lemma mtrans_mscale s m : mtrans (mscale s m) = mscale s (mtrans m).
Proof. by destruct m as [[a b c] [d e f] [g h k]]. Qed.
Lemma shift_sym i m p : mtrans i = i → mtrans (shift_inertia i m p) = shift_inertia i m p.
Proof. intros E. unfold shift_inertia. by rewrite mtrans_madd, mtrans_mscale, mtrans_mmul, mtrans_inv, E. Qed.
Lemma conj_quad m i u : dot3 u (mvec (mmul (mmul m i) (mtrans m)) u) =
  dot3 (mvec (mtrans m) u) (mvec i (mvec (mtrans m) u)).
Proof. rewrite !mmul_vec, mtrans_dot. done. Qed.
Lemma mmul_assoc m n o : mmul m (mmul n o) = mmul (mmul m n) o.
Proof.
  destruct m as [[a b c] [d e f] [g h k]], n as [[a' b' c'] [d' e' f'] [g' h' k']], o as [[a2 b2 c2] [d2 e2 f2] [g2 h2 k2]].
  unfold mmul, col0, col1, col2, dot3. simpl. f_equal; f_equal; ring.
Qed.
Lemma conj_sym m i : mtrans i = i → mtrans (mmul (mmul m i) (mtrans m)) = mmul (mmul m i) (mtrans m).
Proof.
  intros E. rewrite !mtrans_mmul, mtrans_inv, E. apply mmul_assoc.
Qed.
Lemma dot_ext u v : (∀ w, dot3 u w = dot3 v w) → u = v.
Proof.
  intros H. pose proof (H (V3 1 0 0)). pose proof (H (V3 0 1 0)). pose proof (H (V3 0 0 1)).
  unfold dot3 in *. simpl in *. apply v3_eq; lra.
Qed.
Lemma trans_conj q u : unitq q → mvec (mtrans (to_matrix q)) u = rotate (qconj q) u.
Proof.
  intros H. apply dot_ext. intros w. rewrite <- mtrans_dot, to_matrix_rotate by done.
  rewrite <- (conj_inv' q u) at 1 by done. by rewrite rotate_dot.
Qed.
Lemma arm_move q p u x : unitq q →
  lsq (cross3 u (p + rotate q x)%V) =
  lsq (cross3 u p) + 2 * dot3 (rotate (qconj q) (cross3 (cross3 u p) u)) x + lsq (cross3 (rotate (qconj q) u) x).
Proof.
  intros H.
  assert (dot3 (rotate (qconj q) (cross3 (cross3 u p) u)) x = dot3 (cross3 (cross3 u p) u) (rotate q x)) as ->.
  { rewrite <- (conj_inv q x) at 1 by done. rewrite rotate_dot; [done|by apply unit_conj]. }
  assert (lsq (cross3 (rotate (qconj q) u) x) = lsq (cross3 u (rotate q x))) as ->.
  { rewrite <- (conj_inv' q u) at 2 by done. rewrite <- rotate_cross by done. unfold lsq. by rewrite rotate_dot. }
  generalize (rotate q x). intros [y1 y2 y3]. destruct u as [u1 u2 u3], p as [p1 p2 p3].
  unfold lsq, dot3, cross3, add3. simpl. ring.
Qed.

Lemma lin3 s v c w : good s → is_centroid s v c → s (λ p, dot3 w p) (v * dot3 w c).
Proof.
  intros G (_ & Cx & Cy & Cz). destruct w as [w1 w2 w3].
  pose proof (g_lin _ G _ _ _ _ w1 w2 Cx Cy) as I.
  pose proof (g_lin _ G _ _ _ _ 1 w3 I Cz) as I'.
  replace (v * dot3 (V3 w1 w2 w3) c) with (1 * (w1 * (v * vx c) + w2 * (v * vy c)) + w3 * (v * vz c)).
  - eapply g_ext; [done| |exact I']. intros p. unfold dot3. simpl. ring.
  - unfold dot3. simpl. ring.
Qed.
Lemma dot_vec0 w : dot3 w vec0 = 0.
Proof. destruct w. unfold dot3, vec0. simpl. ring. Qed.

Lemma moved_volume q p s v : is_volume s v → is_volume (s_moved q p s) v.
Proof. done. Qed.
Lemma rotate_x q x w : unitq q → dot3 w (rotate q x) = dot3 (rotate (qconj q) w) x.
Proof. intros H. rewrite <- (conj_inv' q w) at 1 by done. by rewrite rotate_dot. Qed.
Lemma moved_centroid q p s v : good s → unitq q → is_centroid s v vec0 → is_centroid (s_moved q p s) v p.
Proof.
  intros G H C. pose proof C as (V & _).
  assert (∀ w, s (λ x, dot3 w (p + rotate q x)%V) (v * dot3 w p)) as L.
  { intros w. pose proof (lin3 s v vec0 (rotate (qconj q) w) G C) as I.
    pose proof (g_lin _ G _ _ _ _ (dot3 w p) 1 V I) as I'. simpl in I'. rewrite dot_vec0 in I'.
    replace (v * dot3 w p) with (dot3 w p * v + 1 * (v * 0)) by ring.
    eapply g_ext; [done| |exact I']. intros x. simpl. rewrite <- rotate_x by done.
    destruct w as [w1 w2 w3], p as [p1 p2 p3]. generalize (rotate q x). intros [y1 y2 y3]. unfold dot3, add3. simpl. ring. }
  split; [done|]. unfold s_moved. split_and!.
  - pose proof (L (V3 1 0 0)) as I. replace (vx p) with (dot3 (V3 1 0 0) p) by (unfold dot3; simpl; ring).
    eapply g_ext; [done| |exact I]. intros x. unfold dot3. simpl. ring.
  - pose proof (L (V3 0 1 0)) as I. replace (vy p) with (dot3 (V3 0 1 0) p) by (unfold dot3; simpl; ring).
    eapply g_ext; [done| |exact I]. intros x. unfold dot3. simpl. ring.
  - pose proof (L (V3 0 0 1)) as I. replace (vz p) with (dot3 (V3 0 0 1) p) by (unfold dot3; simpl; ring).
    eapply g_ext; [done| |exact I]. intros x. unfold dot3. simpl. ring.
Qed.
Lemma moved_moment q p s v m i : good s → unitq q → v ≠ 0 → is_centroid s v vec0 →
  (∀ u, s (λ x, m / v * lsq (cross3 u x)) (dot3 u (mvec i u))) →
  let j := shift_inertia (mmul (mmul (to_matrix q) i) (mtrans (to_matrix q))) m p in
  ∀ u, s_moved q p s (λ x, m / v * lsq (cross3 u x)) (dot3 u (mvec j u)).
Proof.
  intros G H V0 C I j u. pose proof C as (V & _).
  unfold j. rewrite shift_quad, conj_quad, trans_conj by done. unfold s_moved.
  pose proof (lin3 s v vec0 (rotate (qconj q) (cross3 (cross3 u p) u)) G C) as J. rewrite dot_vec0 in J.
  pose proof (g_lin _ G _ _ _ _ (m / v * lsq (cross3 u p)) (m / v * 2) V J) as K.
  pose proof (g_lin _ G _ _ _ _ 1 1 K (I (rotate (qconj q) u))) as L.
  replace (dot3 _ _ + m * lsq (cross3 u p)) with
    (1 * (m / v * lsq (cross3 u p) * v + m / v * 2 * (v * 0)) +
     1 * dot3 (rotate (qconj q) u) (mvec i (rotate (qconj q) u))) by (field; done).
  eapply g_ext; [done| |exact L]. intros x. simpl. rewrite arm_move by done. ring.
Qed.
Lemma moved_inertia q p s v m i : good s → unitq q → is_centroid s v vec0 → is_inertia s m i →
  is_inertia (s_moved q p s) m (shift_inertia (mmul (mmul (to_matrix q) i) (mtrans (to_matrix q))) m p).
Proof.
  intros G H C (S & v' & V & V0 & I). split; [by apply shift_sym, conj_sym|].
  assert (v' = v) as -> by (eapply g_unique; [done|exact V|apply C]).
  exists v. split; [done|]. split; [done|]. by apply moved_moment.
Qed.
Lemma moved_centroid_0 s v q : good s → unitq q → is_centroid s v vec0 → is_centroid (s_moved q vec0 s) v vec0.
Proof. by apply moved_centroid. Qed.
