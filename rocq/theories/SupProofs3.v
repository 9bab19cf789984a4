From Verif Require Import Outcome BoxModel GeoModel RotSpec RotProofs NearModel NearSpec NearProofs RayModel RaySpec RayProofs RayProofs2 RayProofs3 SupModel SupSpec SupProofs SupProofs2.
From Coq Require Import Reals Lra Psatz.
Local Open Scope R_scope.

(** * Point clouds *)
Lemma hull_in ps p : p ∈ ps → hull ps p.
Proof. intros H d k Hk. auto. Qed.
Lemma hull_support ps d m : (∀ p, p ∈ ps → dot3 p d <= m) → (∃ p, p ∈ ps ∧ dot3 p d = m) → is_support (hull ps) d m.
Proof.
  intros A (p & Hp & E). split.
  - intros x Hx. apply Hx. done.
  - exists p. split; [apply hull_in|]; done.
Qed.
Lemma hull_placed ps pos orn x : qlsq orn = 1 →
  hull ((λ p, to_world p pos orn) <$> ps) x ↔ placed pos orn (hull ps) x.
Proof.
  intros Hq. rewrite placed_iff by done. split.
  - intros H d k A. specialize (H (rotate orn d) (k + dot3 pos (rotate orn d))).
    rewrite <- (world_object x pos orn) in H by done. rewrite world_dot, conj_inv in H by done.
    enough (dot3 pos (rotate orn d) + dot3 (to_object x pos orn) d <= k + dot3 pos (rotate orn d)) by lra.
    apply H. intros p (q & -> & Hq')%elem_of_list_fmap. rewrite world_dot, conj_inv by done. specialize (A q Hq'). lra.
  - intros H d k A. rewrite <- (world_object x pos orn) by done. rewrite world_dot by done.
    enough (dot3 (to_object x pos orn) (rotate (qconj orn) d) <= k - dot3 pos d) by lra. apply H.
    intros p Hp. specialize (A (to_world p pos orn)). rewrite world_dot in A by done.
    assert (dot3 pos d + dot3 p (rotate (qconj orn) d) <= k); [|lra]. apply A. apply elem_of_list_fmap. exists p. done.
Qed.

Lemma foldl_max (f : v3 → R) ps m0 :
  let m := foldl (λ m p, Rmax (f p) m) m0 ps in
  m0 <= m ∧ (∀ p, p ∈ ps → f p <= m) ∧ (m = m0 ∨ ∃ p, p ∈ ps ∧ m = f p).
Proof.
  revert m0. induction ps as [|q ps IH]; intros m0; simpl.
  - split; [lra|]. split; [intros p H; inversion H|]. left. done.
  - destruct (IH (Rmax (f q) m0)) as (A & B & C). pose proof (Rmax_l (f q) m0). pose proof (Rmax_r (f q) m0).
    split; [lra|]. split.
    + intros p [->|Hp]%elem_of_cons; [lra|auto].
    + destruct C as [C|(p & Hp & C)].
      * rewrite C. unfold Rmax. destruct (Rle_dec (f q) m0); [left; done|right; exists q; split; [set_solver|done]].
      * right. exists p. split; [set_solver|done].
Qed.
Lemma cloud_projection_ok ps d : (∃ p, p ∈ ps ∧ - scalar_max <= dot3 p d) →
  is_support (hull ps) d (cloud_projection ps d).
Proof.
  intros (p & Hp & L). destruct (foldl_max (λ p, dot3 p d) ps (- scalar_max)) as (A & B & C). apply hull_support; [done|].
  destruct C as [C|(q & Hq & C)]; [|exists q; done]. exists p. split; [done|]. specialize (B p Hp). unfold cloud_projection. simpl in *. lra.
Qed.
Lemma cloud_point_fold ps d m0 s0 :
  let '(m, s) := foldl (λ '(m, s) p, if rltb m (dot3 p d) then (dot3 p d, p) else (m, s)) (m0, s0) ps in
  m0 <= m ∧ (∀ p, p ∈ ps → dot3 p d <= m) ∧ ((m, s) = (m0, s0) ∨ s ∈ ps ∧ m = dot3 s d).
Proof.
  revert m0 s0. induction ps as [|q ps IH]; intros m0 s0; simpl.
  - split; [lra|]. split; [intros p H; inversion H|]. left. done.
  - destruct (rltb m0 (dot3 q d)) eqn:E.
    + apply rltb_true in E. specialize (IH (dot3 q d) q). destruct (foldl _ _ ps) as [m s]. destruct IH as (A & B & C).
      split; [lra|]. split; [intros p [->|Hp]%elem_of_cons; [lra|auto]|]. right.
      destruct C as [[= -> ->]|[C1 C2]]; [set_solver|]. split; [set_solver|done].
    + apply rltb_false in E. specialize (IH m0 s0). destruct (foldl _ _ ps) as [m s]. destruct IH as (A & B & C).
      split; [lra|]. split; [intros p [->|Hp]%elem_of_cons; [lra|auto]|].
      destruct C as [C|[C1 C2]]; [left; done|right]. split; [set_solver|done].
Qed.
Lemma cloud_point_ok ps d : (∃ p, p ∈ ps ∧ - scalar_max < dot3 p d) →
  cloud_point ps d ∈ ps ∧ furthest (hull ps) d (cloud_point ps d).
Proof.
  intros (p & Hp & L). unfold cloud_point. pose proof (cloud_point_fold ps d (- scalar_max) vec0) as F.
  destruct (foldl _ _ ps) as [m s]. destruct F as (A & B & C). simpl.
  destruct C as [[= -> ->]|[C1 C2]]; [specialize (B p Hp); lra|]. split; [done|]. split; [apply hull_in; done|].
  intros y Hy. apply Hy. intros q Hq. rewrite <- C2. auto.
Qed.

Lemma cloud_fold (f : v3 → R) (g : box → R) (lo : bool) ps b :
  (∀ b p, g (Box (min3 (bmin b) p) (max3 (bmax b) p)) = if lo then Rmin (g b) (f p) else Rmax (g b) (f p)) →
  let m := g (foldl (λ b p, Box (min3 (bmin b) p) (max3 (bmax b) p)) b ps) in
  if lo then m <= g b ∧ (∀ p, p ∈ ps → m <= f p) ∧ (m = g b ∨ ∃ p, p ∈ ps ∧ m = f p)
  else g b <= m ∧ (∀ p, p ∈ ps → f p <= m) ∧ (m = g b ∨ ∃ p, p ∈ ps ∧ m = f p).
Proof.
  intros G. revert b. induction ps as [|q ps IH]; intros b; simpl.
  - destruct lo; (split; [lra|]; split; [intros p H; inversion H|left; done]).
  - specialize (IH (Box (min3 (bmin b) q) (max3 (bmax b) q))). cbv zeta in IH. rewrite G in IH. destruct lo.
    + destruct IH as (A & B & C). pose proof (Rmin_l (g b) (f q)). pose proof (Rmin_r (g b) (f q)).
      split; [lra|]. split; [intros p [->|Hp]%elem_of_cons; [lra|auto]|].
      destruct C as [C|(p & Hp & C)]; [|right; exists p; split; [set_solver|done]].
      rewrite C. unfold Rmin. destruct (Rle_dec (g b) (f q)); [left; done|right; exists q; split; [set_solver|done]].
    + destruct IH as (A & B & C). pose proof (Rmax_l (g b) (f q)). pose proof (Rmax_r (g b) (f q)).
      split; [lra|]. split; [intros p [->|Hp]%elem_of_cons; [lra|auto]|].
      destruct C as [C|(p & Hp & C)]; [|right; exists p; split; [set_solver|done]].
      rewrite C. unfold Rmax. destruct (Rle_dec (g b) (f q)); [right; exists q; split; [set_solver|done]|left; done].
Qed.
Lemma cloud_encloses ps : encloses (cloud_aabb ps) (λ x, x ∈ ps).
Proof.
  intros x Hx. unfold cloud_aabb. set (b0 := Box _ _).
  destruct (cloud_fold vx (λ b, vx (bmin b)) true ps b0) as (_ & X & _); [done|].
  destruct (cloud_fold vy (λ b, vy (bmin b)) true ps b0) as (_ & Y & _); [done|].
  destruct (cloud_fold vz (λ b, vz (bmin b)) true ps b0) as (_ & Z & _); [done|].
  destruct (cloud_fold vx (λ b, vx (bmax b)) false ps b0) as (_ & X' & _); [done|].
  destruct (cloud_fold vy (λ b, vy (bmax b)) false ps b0) as (_ & Y' & _); [done|].
  destruct (cloud_fold vz (λ b, vz (bmax b)) false ps b0) as (_ & Z' & _); [done|].
  unfold in_aabb, le3. auto 10.
Qed.
Lemma cloud_attained (f : v3 → R) (g : box → R) (lo : bool) ps :
  (∀ b p, g (Box (min3 (bmin b) p) (max3 (bmax b) p)) = if lo then Rmin (g b) (f p) else Rmax (g b) (f p)) →
  g (Box v3_max (neg3 v3_max)) = (if lo then scalar_max else - scalar_max) →
  ps ≠ [] → (∀ p, p ∈ ps → Rabs (f p) <= scalar_max) →
  ∃ p, p ∈ ps ∧ g (cloud_aabb ps) = f p.
Proof.
  intros G G0 Hne Hr. pose proof (cloud_fold f g lo ps (Box v3_max (neg3 v3_max)) G) as F. cbv zeta in F. fold (cloud_aabb ps) in F.
  destruct ps as [|p0 ps0] eqn:Eps; [done|]. rewrite <- Eps in *. assert (Hp0 : p0 ∈ ps) by (rewrite Eps; set_solver).
  assert (K : ∀ k, Rabs k <= scalar_max → - scalar_max <= k <= scalar_max).
  { intros k Hk. unfold Rabs in Hk. destruct Rcase_abs; lra. }
  pose proof (K _ (Hr p0 Hp0)) as K0.
  destruct lo; destruct F as (A & B & [C|(p & Hp & C)]); try (exists p; done); exists p0; (split; [done|]); specialize (B p0 Hp0); rewrite G0 in *; lra.
Qed.
Lemma cloud_least ps (S : v3 → Prop) : ps ≠ [] → in_range ps →
  (∀ p, p ∈ ps → S p) → (∀ x, S x → hull ps x) → least_box (cloud_aabb ps) S.
Proof.
  intros Hne Hr HS1 HS2. pose proof (cloud_encloses ps) as En.
  assert (K : ∀ d m, (∀ p, p ∈ ps → dot3 p d <= m) → (∃ p, p ∈ ps ∧ m = dot3 p d) → is_support S d m).
  { intros d m A (p & Hp & E). split; [intros x Hx; apply (HS2 x Hx); done|]. exists p. split; [auto|done]. }
  apply six_supports; apply K; try (intros p Hp; destruct (En p Hp) as [(E1 & E2 & E3) (E4 & E5 & E6)]; rewrite ?dot_neg, ?dot_ex, ?dot_ey, ?dot_ez; lra).
  - destruct (cloud_attained vx (λ b, vx (bmax b)) false ps) as (p & Hp & E); [done|simpl; lra|done|intros; apply Hr; done|]. exists p. rewrite dot_ex. done.
  - destruct (cloud_attained vx (λ b, vx (bmin b)) true ps) as (p & Hp & E); [done|simpl; lra|done|intros; apply Hr; done|]. exists p. rewrite dot_neg, dot_ex, E. done.
  - destruct (cloud_attained vy (λ b, vy (bmax b)) false ps) as (p & Hp & E); [done|simpl; lra|done|intros; apply Hr; done|]. exists p. rewrite dot_ey. done.
  - destruct (cloud_attained vy (λ b, vy (bmin b)) true ps) as (p & Hp & E); [done|simpl; lra|done|intros; apply Hr; done|]. exists p. rewrite dot_neg, dot_ey, E. done.
  - destruct (cloud_attained vz (λ b, vz (bmax b)) false ps) as (p & Hp & E); [done|simpl; lra|done|intros; apply Hr; done|]. exists p. rewrite dot_ez. done.
  - destruct (cloud_attained vz (λ b, vz (bmin b)) true ps) as (p & Hp & E); [done|simpl; lra|done|intros; apply Hr; done|]. exists p. rewrite dot_neg, dot_ez, E. done.
Qed.
Lemma least_ext b (S T : v3 → Prop) : (∀ x, S x ↔ T x) → least_box b S → least_box b T.
Proof.
  intros H [A B]. split.
  - intros x Hx. apply A, H. done.
  - intros c Hc. apply B. intros x Hx. apply Hc, H. done.
Qed.
Lemma cloud_aabb_at_ok ps pos orn : qlsq orn = 1 → ps ≠ [] → in_range ((λ p, to_world p pos orn) <$> ps) →
  least_box (cloud_aabb_at ps pos orn) (placed pos orn (hull ps)).
Proof.
  intros Hq Hne Hr. eapply least_ext; [intros x; apply (hull_placed ps pos orn x Hq)|].
  apply cloud_least; try done; [|intros p; apply hull_in]. destruct ps; done.
Qed.
Lemma least_moved b (S : v3 → Prop) v : least_box b S →
  least_box (Box (add3 (bmin b) v) (add3 (bmax b) v)) (λ x, S (sub3 x v)).
Proof.
  intros [A B]. split.
  - intros x Hx. apply A in Hx. unfold in_aabb, le3, add3, sub3 in *; simpl in *. lra.
  - intros c Hc. destruct (B (Box (sub3 (bmin c) v) (sub3 (bmax c) v))) as [B1 B2].
    + intros x Hx. specialize (Hc (add3 x v)). cbv beta in Hc. replace (sub3 (add3 x v) v) with x in Hc by (destruct x, v; unfold sub3, add3; simpl; f_equal; ring).
      specialize (Hc Hx). unfold in_aabb, le3, add3, sub3 in *; simpl in *. lra.
    + unfold le3, add3, sub3 in *; simpl in *. lra.
Qed.
Lemma rotated_aabb_ok vs pos orn : qlsq orn = 1 → vs ≠ [] → in_range (rotate orn <$> vs) →
  least_box (rotated_aabb (rotate orn <$> vs) pos) (placed pos orn (hull vs)).
Proof.
  intros Hq Hne Hr. pose proof (cloud_aabb_at_ok vs vec0 orn Hq Hne) as L. unfold cloud_aabb_at in L.
  assert (E : (λ p, to_world p vec0 orn) <$> vs = rotate orn <$> vs).
  { apply list_fmap_ext. intros i x _. unfold to_world. destruct (rotate orn x). unfold add3, vec0; simpl. f_equal; ring. }
  rewrite E in L. specialize (L Hr). apply (least_moved _ _ pos) in L. unfold rotated_aabb. revert L. apply least_ext.
  intros x. rewrite !placed_iff by done. unfold to_object.
  replace (sub3 (sub3 x pos) vec0) with (sub3 x pos) by (destruct x, pos; unfold sub3, vec0; simpl; f_equal; ring). done.
Qed.

(** * Boxes of boxes *)
Lemma least_self b : valid b → least_box b (in_aabb b).
Proof.
  intros V. split; [intros x Hx; done|]. intros c Hc.
  pose proof (Hc (bmin b)) as A. pose proof (Hc (bmax b)) as B. unfold in_aabb, le3, valid, le3 in *. intuition lra.
Qed.
Lemma least_union b c (S T : v3 → Prop) : least_box b S → least_box c T → least_box (enclosing b c) (λ x, S x ∨ T x).
Proof.
  intros [A1 A2] [B1 B2]. split.
  - intros x [Hx|Hx]; [apply A1 in Hx|apply B1 in Hx]; unfold in_aabb, le3, enclosing, min3, max3 in *; simpl;
      pose proof (Rmin_l (vx (bmin b)) (vx (bmin c))); pose proof (Rmin_r (vx (bmin b)) (vx (bmin c)));
      pose proof (Rmin_l (vy (bmin b)) (vy (bmin c))); pose proof (Rmin_r (vy (bmin b)) (vy (bmin c)));
      pose proof (Rmin_l (vz (bmin b)) (vz (bmin c))); pose proof (Rmin_r (vz (bmin b)) (vz (bmin c)));
      pose proof (Rmax_l (vx (bmax b)) (vx (bmax c))); pose proof (Rmax_r (vx (bmax b)) (vx (bmax c)));
      pose proof (Rmax_l (vy (bmax b)) (vy (bmax c))); pose proof (Rmax_r (vy (bmax b)) (vy (bmax c)));
      pose proof (Rmax_l (vz (bmax b)) (vz (bmax c))); pose proof (Rmax_r (vz (bmax b)) (vz (bmax c))); lra.
  - intros e He. destruct (A2 e) as [X1 X2]; [intros x Hx; apply He; auto|]. destruct (B2 e) as [Y1 Y2]; [intros x Hx; apply He; auto|].
    unfold le3, enclosing in *; simpl. repeat split; (apply Rmin_glb || apply Rmax_lub); lra.
Qed.
Lemma least_fold {A} (f : A → box) (S : A → v3 → Prop) l b T :
  least_box b T → (∀ a, a ∈ l → least_box (f a) (S a)) →
  least_box (foldl (λ b a, enclosing b (f a)) b l) (λ x, T x ∨ ∃ a, a ∈ l ∧ S a x).
Proof.
  revert b T. induction l as [|a l IH]; intros b T HT HS; simpl.
  - revert HT. apply least_ext. intros x. split; [auto|]. intros [H|(a & Ha & _)]; [done|inversion Ha].
  - specialize (IH _ _ (least_union _ _ _ _ HT (HS a ltac:(set_solver)))). revert IH.
    intros IH. specialize (IH (λ a' H', HS a' ltac:(set_solver))). revert IH. apply least_ext. intros x. split.
    + intros [[H|H]|(a' & Ha' & H)]; [auto|right; exists a; split; [set_solver|done]|right; exists a'; split; [set_solver|done]].
    + intros [H|(a' & Ha' & H)]; [auto|]. apply elem_of_cons in Ha' as [->|Ha']; [auto|]. right. exists a'. done.
Qed.

Lemma in_aabb_box b x : in_aabb b x ↔ in_box (scl (1 / 2) (sub3 (bmax b) (bmin b))) (sub3 x (box_center b)).
Proof. unfold in_aabb, le3, in_box, box_center, scl, sub3, add3; simpl. lra. Qed.
Lemma turned_ok h c orn : qlsq orn = 1 → 0 <= vx h → 0 <= vy h → 0 <= vz h →
  let f e := dot3 (support_point_box h (rotate (qconj orn) e)) (rotate (qconj orn) e) in
  least_box (Box (sub3 c (V3 (f ex) (f ey) (f ez))) (add3 c (V3 (f ex) (f ey) (f ez)))) (placed c orn (in_box h)).
Proof.
  intros Hq Hx Hy Hz f. subst f. pose proof (λ d, furthest_support _ _ _ (box_furthest h d Hx Hy Hz)) as F.
  apply three_supports; [apply placed_sym; intros x; apply box_sym| | | ].
  - rewrite <- (dot_ex c). apply placed_support; [done|]. apply F.
  - rewrite <- (dot_ey c). apply placed_support; [done|]. apply F.
  - rewrite <- (dot_ez c). apply placed_support; [done|]. apply F.
Qed.
Lemma aabb_to_world_ok b pos orn : qlsq orn = 1 → valid b →
  least_box (aabb_to_world b pos orn) (placed pos orn (in_aabb b)).
Proof.
  intros Hq (V1 & V2 & V3'). pose proof (turned_ok (scl (1 / 2) (sub3 (bmax b) (bmin b))) (to_world (box_center b) pos orn) orn Hq) as T.
  cbv zeta in T. unfold aabb_to_world, turned_aabb. 
  assert (T' := T ltac:(simpl; lra) ltac:(simpl; lra) ltac:(simpl; lra)). clear T. revert T'. apply least_ext.
  intros x. rewrite !placed_iff by done. rewrite in_aabb_box. unfold to_object, to_world.
  replace (sub3 x (add3 pos (rotate orn (box_center b)))) with (sub3 (sub3 x pos) (rotate orn (box_center b)))
    by (destruct x, pos, (rotate orn (box_center b)); unfold sub3, add3; simpl; f_equal; ring).
  rewrite rotate_sub, conj_inv by done. done.
Qed.
Lemma aabb_to_object_ok b pos orn : qlsq orn = 1 → valid b →
  least_box (aabb_to_object b pos orn) (λ x, in_aabb b (to_world x pos orn)).
Proof.
  intros Hq (V1 & V2 & V3'). pose proof (turned_ok (scl (1 / 2) (sub3 (bmax b) (bmin b))) (to_object (box_center b) pos orn) (qconj orn) (unit_conj _ Hq)) as T.
  cbv zeta in T. rewrite conj_conj in T. unfold aabb_to_object, turned_aabb.
  assert (T' := T ltac:(simpl; lra) ltac:(simpl; lra) ltac:(simpl; lra)). clear T. revert T'. apply least_ext.
  intros x. rewrite !placed_iff by (apply unit_conj; done). rewrite in_aabb_box. unfold to_object, to_world. rewrite conj_conj.
  rewrite !rotate_sub, !conj_inv' by done.
  replace (sub3 (rotate orn x) (sub3 (box_center b) pos)) with (sub3 (add3 pos (rotate orn x)) (box_center b)); [done|].
  destruct pos, (box_center b), (rotate orn x); unfold sub3, add3; simpl; f_equal; ring.
Qed.

(** * Compounds and islands *)
Lemma part_aabb_ok s pos orn : qlsq orn = 1 → part_ok s pos orn → least_box (part_aabb s pos orn) (part_set s pos orn).
Proof.
  intros Hq H. destruct s; simpl in *.
  - apply sphere_aabb_ok; done.
  - apply box_aabb_ok; tauto.
  - apply cylinder_aabb_ok; tauto.
  - apply capsule_aabb_ok; done.
  - apply cloud_aabb_at_ok; tauto.
Qed.
(** A bounded nonempty set makes the box around it a proper one *)
Lemma part_nonempty s pos orn : qlsq orn = 1 → part_ok s pos orn → ∃ x, part_set s pos orn x.
Proof.
  intros Hq H. destruct s; simpl in *.
  - exists pos. unfold ball, GeoModel.dist, len. replace (lsq (sub3 pos pos)) with 0 by (destruct pos; unfold lsq, dot3, sub3; simpl; ring). rewrite sqrt_0. done.
  - exists (to_world vec0 pos orn). exists vec0. split; [|done]. unfold in_box, vec0; simpl. lra.
  - exists (cylinder_point_at r hl a pos orn ex). apply cylinder_point_member; tauto.
  - set (v0 := sub3 _ _). set (v1 := add3 pos _). exists v0. exists v0. split.
    + exists 0. split; [lra|]. destruct v0, v1. unfold add3, scl, sub3; simpl; f_equal; ring.
    + unfold GeoModel.dist, len. replace (lsq (sub3 v0 v0)) with 0 by (destruct v0; unfold lsq, dot3, sub3; simpl; ring). rewrite sqrt_0. done.
  - destruct H as [H _]. destruct vs as [|v vs]; [done|]. exists (to_world v pos orn). exists v. split; [apply hull_in; set_solver|done].
Qed.
Lemma least_valid b (S : v3 → Prop) : least_box b S → (∃ x, S x) → valid b.
Proof. intros [A _] (x & Hx). apply A in Hx. unfold in_aabb, valid, le3 in *. lra. Qed.

Lemma compound_aabb_ok nodes pos orn : qlsq orn = 1 → nodes ≠ [] → (∀ n, n ∈ nodes → node_ok n) →
  ∃ b, compound_aabb nodes pos orn = Ok b ∧
    least_box b (placed pos orn (λ x, ∃ n, n ∈ nodes ∧ in_aabb (node_aabb n) x)) ∧
    encloses b (placed pos orn (λ x, ∃ n, n ∈ nodes ∧ node_set n x)).
Proof.
  intros Hq Hne Hn. destruct nodes as [|n ns]; [done|]. clear Hne. eexists. split; [done|].
  assert (V : ∀ m, m ∈ n :: ns → least_box (node_aabb m) (node_set m) ∧ valid (node_aabb m)).
  { intros m Hm. destruct (Hn m Hm) as [H1 H2]. pose proof (part_aabb_ok _ (sn_pos m) _ H1 H2) as L. split; [done|].
    eapply least_valid; [done|]. apply part_nonempty; done. }
  assert (L : least_box (foldl (λ b n, enclosing b (aabb_to_world (node_aabb n) pos orn)) (aabb_to_world (node_aabb n) pos orn) ns)
            (placed pos orn (λ x, ∃ m, m ∈ n :: ns ∧ in_aabb (node_aabb m) x))).
  { pose proof (least_fold (λ m, aabb_to_world (node_aabb m) pos orn) (λ m, placed pos orn (in_aabb (node_aabb m))) ns
      (aabb_to_world (node_aabb n) pos orn) (placed pos orn (in_aabb (node_aabb n)))) as F.
    assert (F' := F ltac:(apply aabb_to_world_ok; [done|apply V; set_solver]) ltac:(intros m Hm; apply aabb_to_world_ok; [done|apply V; set_solver])).
    clear F. revert F'. apply least_ext. intros x. setoid_rewrite (λ S, placed_iff pos orn S x Hq). split.
    - intros [H|(m & Hm & H)]; [exists n; split; [set_solver|done]|exists m; split; [set_solver|done]].
    - intros (m & Hm & H). apply elem_of_cons in Hm as [->|Hm]; [auto|]. right. exists m. done. }
  split; [exact L|]. intros x (y & (m & Hm & Hy) & ->). apply L. exists y. split; [|done]. exists m. split; [done|].
  apply (V m Hm). done.
Qed.

Lemma island_fold b first nodes :
  fst (foldl (λ '(b, first) n,
    match n with
    | (true, Some c) => (if (first : bool) then c else enclosing b c, false)
    | _ => (b, first)
    end) (b, first) nodes) =
  match first, island_boxes nodes with
  | false, l => foldl enclosing b l
  | true, [] => b
  | true, c :: l => foldl enclosing c l
  end.
Proof.
  revert b first. induction nodes as [|[p [c|]] nodes IH]; intros b first; simpl.
  - destruct first; done.
  - destruct p; [|rewrite IH; done]. rewrite IH. destruct first; done.
  - destruct p; rewrite IH; done.
Qed.
Lemma island_aabb_ok old nodes :
  (∀ c, c ∈ island_boxes nodes → valid c) →
  (island_boxes nodes = [] → island_aabb old nodes = old) ∧
  (island_boxes nodes ≠ [] → least_box (island_aabb old nodes) (λ x, ∃ c, c ∈ island_boxes nodes ∧ in_aabb c x)).
Proof.
  intros V. unfold island_aabb. rewrite island_fold. destruct (island_boxes nodes) as [|c l]; [done|]. split; [done|]. intros _.
  pose proof (least_fold (λ c, c) in_aabb l c (in_aabb c)) as F.
  assert (F' := F ltac:(apply least_self, V; set_solver) ltac:(intros m Hm; apply least_self, V; set_solver)). clear F. revert F'. apply least_ext. intros x. split.
  - intros [H|(m & Hm & H)]; [exists c; split; [set_solver|done]|exists m; split; [set_solver|done]].
  - intros (m & Hm & H). apply elem_of_cons in Hm as [->|Hm]; [auto|]. right. exists m. done.
Qed.
