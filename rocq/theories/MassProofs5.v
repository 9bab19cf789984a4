(** Box meshes, compounds, capsules, world inertia and the centre of mass. *)
From Coquelicot Require Import Coquelicot.
From Verif Require Import Outcome BoxModel GeoModel RotSpec RotProofs MassModel MassSpec MassProofs MassProofs2 MassProofs3 MassProofs4.
From Coq Require Import Reals Lra Psatz.
Local Open Scope R_scope.

(** * The mesh of a box *)
Definition box_vert (h : v3) (i : nat) : v3 := default vec0 (m_verts (box_mesh h) !! i).
Definition box_ipolys : list (list nat) :=
  [[0; 1; 2; 3]; [7; 6; 5; 4]; [4; 5; 1; 0]; [6; 7; 3; 2]; [7; 4; 0; 3]; [5; 6; 2; 1]]%nat.
Definition box_polys (h : v3) : list (list v3) := (λ p : list nat, box_vert h <$> p) <$> box_ipolys.
Lemma box_describes h : describes (m_verts (box_mesh h)) (m_idx (box_mesh h)) (m_faces (box_mesh h)) (box_polys h).
Proof.
  destruct h as [x y z]. unfold box_polys, box_ipolys. simpl.
  repeat (match goal with |- describes _ _ (?f :: 4%nat :: ?fs) (?p :: ?ps) =>
    change (describes (m_verts (box_mesh (V3 x y z))) (m_idx (box_mesh (V3 x y z))) (f :: length p :: fs) (p :: ps)) end;
    constructor; [intros j v Hj; do 4 (destruct j as [|j]; [injection Hj as <-; eexists; split; reflexivity|]); done|]).
  constructor.
Qed.
Lemma closed_fmap {A} (f : A → v3) (ip : list (list A)) :
  (ip ≫= cycle_edges) ≡ₚ (λ e, (e.2, e.1)) <$> (ip ≫= cycle_edges) → closed_polys ((λ p : list A, f <$> p) <$> ip).
Proof.
  intros P. unfold closed_polys.
  rewrite (bind_fmap_gen _ _ cycle_edges (λ e, (f e.1, f e.2))) by (intros; apply cycle_edges_fmap).
  rewrite P at 1. by rewrite <- !list_fmap_compose.
Qed.
Lemma box_closed h : closed_polys (box_polys h).
Proof. apply closed_fmap. unfold box_ipolys. simpl. solve_Permutation. Qed.
Lemma box_lengths h : Forall (λ p, 3 <= length p)%nat (box_polys h).
Proof. repeat constructor. Qed.
Lemma box_vol6 h : vol6 (box_polys h) = 48 * (vx h * vy h * vz h).
Proof. destruct h as [x y z]. unfold vol6, tris_of, box_polys, box_ipolys, box_vert, triple3, dot3, cross3. simpl. ring. Qed.
Lemma polyhedron_value mass m ps : describes (m_verts m) (m_idx m) (m_faces m) ps → Forall (λ p, 3 <= length p)%nat ps →
  inertia_polyhedron mass m = Ok (
    let s f g := sumR (quad_term f g) (tris_of ps) in
    let r := mass / (vol6 ps / 6) / 120 in
    Mat (V3 ((s vy vy + s vz vz) * r) (s vx vy * r) (s vz vx * r))
        (V3 (s vx vy * r) ((s vz vz + s vx vx) * r) (s vy vz * r))
        (V3 (s vz vx * r) (s vy vz * r) ((s vx vx + s vy vy) * r))).
Proof. intros D F. unfold inertia_polyhedron. by rewrite (tris_ok m ps). Qed.
Lemma box_tensor mass h : 0 < vx h → 0 < vy h → 0 < vz h →
  inertia_polyhedron mass (box_mesh h) = Ok (mdiag (inertia_solid_box mass (scl 2 h))).
Proof.
  intros P1 P2 P3. destruct h as [x y z]. simpl in P1, P2, P3.
  rewrite (polyhedron_value _ _ (box_polys (V3 x y z)) (box_describes _) (box_lengths _)). cbv zeta beta. f_equal.
  rewrite box_vol6. cbn [vx vy vz].
  assert (sumR (quad_term vx vx) (tris_of (box_polys (V3 x y z))) = 320 * (x * x * x * y * z)) as ->.
  { unfold tris_of, box_polys, box_ipolys, box_vert, quad_term, triple3, dot3, cross3, add3. simpl. ring. }
  assert (sumR (quad_term vy vy) (tris_of (box_polys (V3 x y z))) = 320 * (x * y * y * y * z)) as ->.
  { unfold tris_of, box_polys, box_ipolys, box_vert, quad_term, triple3, dot3, cross3, add3. simpl. ring. }
  assert (sumR (quad_term vz vz) (tris_of (box_polys (V3 x y z))) = 320 * (x * y * z * z * z)) as ->.
  { unfold tris_of, box_polys, box_ipolys, box_vert, quad_term, triple3, dot3, cross3, add3. simpl. ring. }
  assert (sumR (quad_term vy vz) (tris_of (box_polys (V3 x y z))) = 0) as ->.
  { unfold tris_of, box_polys, box_ipolys, box_vert, quad_term, triple3, dot3, cross3, add3. simpl. ring. }
  assert (sumR (quad_term vz vx) (tris_of (box_polys (V3 x y z))) = 0) as ->.
  { unfold tris_of, box_polys, box_ipolys, box_vert, quad_term, triple3, dot3, cross3, add3. simpl. ring. }
  assert (sumR (quad_term vx vy) (tris_of (box_polys (V3 x y z))) = 0) as ->.
  { unfold tris_of, box_polys, box_ipolys, box_vert, quad_term, triple3, dot3, cross3, add3. simpl. ring. }
  unfold mdiag, inertia_solid_box, scl. simpl. f_equal; f_equal; field; split_and!; lra.
Qed.
Lemma box_mesh_ok mass h : 0 < vx h → 0 < vy h → 0 < vz h →
  mesh_volume (box_mesh h) = Ok (box_volume (scl 2 h)) ∧ mesh_centroid (box_mesh h) = Ok vec0 ∧
  inertia_polyhedron mass (box_mesh h) = Ok (mdiag (inertia_solid_box mass (scl 2 h))).
Proof.
  intros P1 P2 P3. split_and!; [| |by apply box_tensor].
  - destruct (mesh_volume_ok _ _ (box_describes h) (box_lengths h)) as (v & -> & _ & ->). f_equal.
    rewrite box_vol6. destruct h. unfold box_volume, scl. simpl. field.
  - destruct (centroid_value _ _ (box_describes h) (box_lengths h) (box_closed h)) as (c & -> & E).
    + rewrite box_vol6. assert (0 < vx h * vy h * vz h) by (repeat apply Rmult_lt_0_compat; done). lra.
    + f_equal. rewrite box_vol6 in E.
      assert (0 < vx h * vy h * vz h) by (repeat apply Rmult_lt_0_compat; done).
      assert (∀ a, sumR (first_term a) (tris_of (box_polys h)) = 0) as Z.
      { destruct h as [x y z]. intros a.
        destruct a; unfold tris_of, box_polys, box_ipolys, box_vert, first_term, coord, triple3, dot3, cross3; simpl; ring. }
      assert (∀ a, coord a c = 0) as Zc.
      { intros a. specialize (E a). rewrite Z in E. assert (vx h * vy h * vz h * coord a c = 0) as Em by lra.
        apply Rmult_integral in Em as [Em|Em]; [lra|done]. }
      apply v3_eq; [apply (Zc AX)|apply (Zc AY)|apply (Zc AZ)].
Qed.

(** * Compounds of boxes, spheres and cylinders *)
Lemma good_plain p : plain p → good (prim_solid p).
Proof. destruct p; simpl; try done; intros _; [apply good_box|apply good_rev|apply good_rev]. Qed.
Lemma rev_centroid a lo hi r2 v : lo <= hi → (∀ x, lo <= x <= hi → 0 <= r2 x) →
  is_RInt r2 lo hi v → is_RInt (λ x, x * r2 x) lo hi 0 → is_centroid (s_revolved a lo hi r2) (PI * v) vec0.
Proof.
  intros L P Hv H1. split; [by apply rev_volume|]. simpl. rewrite Rmult_0_r.
  assert (∀ c0 c1 c2 f, (∀ x y z, f (pt a x y z) = c0 * x + c1 * y + c2 * z) → s_revolved a lo hi r2 f 0) as K.
  { intros c0 c1 c2 f E. apply (rev_poly a lo hi r2 f (λ x, c0 * x) (λ _, c1) (λ _, c2) 0 0 0); [done|done| |].
    - intros. rewrite E. ring.
    - evar_last.
      + eapply is_RInt_ext; [|apply (is_RInt_scal (V := R_NormedModule) _ lo hi (PI * c0) _ H1)].
        intros x _. unfold scal; simpl. unfold Hierarchy.mult; simpl. toR. field.
      + unfold scal; simpl. unfold Hierarchy.mult; simpl. toR. ring. }
  destruct a; split_and!; unfold pt in K.
  - apply (K 1 0 0). intros. simpl. ring.
  - apply (K 0 1 0). intros. simpl. ring.
  - apply (K 0 0 1). intros. simpl. ring.
  - apply (K 0 0 1). intros. simpl. ring.
  - apply (K 1 0 0). intros. simpl. ring.
  - apply (K 0 1 0). intros. simpl. ring.
  - apply (K 0 1 0). intros. simpl. ring.
  - apply (K 0 0 1). intros. simpl. ring.
  - apply (K 1 0 0). intros. simpl. ring.
Qed.
Lemma plain_volume p : plain p → ∃ v, prim_volume p = Ok v ∧ 0 < v ∧ is_centroid (prim_solid p) v vec0.
Proof.
  pose proof PI_RGT_0 as PP.
  destruct p as [h|r|r hl a|r hl a|m]; simpl; try done.
  - intros (P1 & P2 & P3). eexists. split; [done|].
    assert (0 < vx h * vy h * vz h) by (repeat apply Rmult_lt_0_compat; done).
    split; [unfold box_volume, scl; simpl; nra|].
    split; [apply box_volume_ok; lra|]. split_and!; simpl; rewrite Rmult_0_r.
    + apply (box_poly h _ 0 1 0 0 0 0 0 0 0 0); simpl; try lra; intros; ring.
    + apply (box_poly h _ 0 0 1 0 0 0 0 0 0 0); simpl; try lra; intros; ring.
    + apply (box_poly h _ 0 0 0 1 0 0 0 0 0 0); simpl; try lra; intros; ring.
  - intros P. eexists. split; [done|]. destruct (sphere_rev r AX P) as (v & m2 & m4 & Pr & Iv & I2 & I4 & V0 & <- & _).
    split; [by apply Rmult_lt_0_compat|]. apply rev_centroid; [lra|done|done|].
    apply (poly_int' 0 (r * r) 0 (-1) 0); [intros; ring|field].
  - intros [P Q]. eexists. split; [done|]. destruct (cylinder_rev r hl) as (Iv & _ & _).
    replace (cylinder_volume r (hl * 2)) with (PI * (2 * hl * (r * r))) by (unfold cylinder_volume; ring).
    assert (0 < hl * (r * r)) by (repeat apply Rmult_lt_0_compat; done).
    split; [apply Rmult_lt_0_compat; lra|]. apply rev_centroid; [lra| |done|].
    + intros. nra.
    + apply (poly_int' 0 (r * r) 0 0 0); [intros; ring|field].
Qed.
Lemma plain_inertia p m : plain p → ∃ i, prim_inertia p m = Ok i ∧ is_inertia (prim_solid p) m i.
Proof.
  destruct p as [h|r|r hl a|r hl a|me]; simpl; try done.
  - intros (P1 & P2 & P3). eexists. split; [done|]. by apply box_inertia_ok.
  - intros P. eexists. split; [done|]. by apply sphere_inertia_ok.
  - intros [P Q]. eexists. split; [done|]. by apply cylinder_inertia_ok.
Qed.

Lemma compound_volume_ok ns : Forall (λ n, plain (n_shape n)) ns →
  ∃ v, compound_volume ns = Ok v ∧ is_volume (s_sum (node_solid <$> ns)) v ∧ (ns ≠ [] → 0 < v) ∧ 0 <= v.
Proof.
  induction 1 as [|n ns P F (v & E & V & _ & V0)].
  - exists 0. split_and!; try done; [|lra]. exists nil. split; [constructor|done].
  - destruct (plain_volume _ P) as (w & Ew & W & C & _). simpl. rewrite Ew, E. simpl. exists (w + v).
    split_and!; [done| |intros; lra|lra]. destruct V as (l & Fl & ->). exists (w :: l). split; [|done].
    constructor; [exact C|exact Fl].
Qed.
Lemma sum_inertia_ok mass total ns : 0 < total → Forall (λ n, plain (n_shape n) ∧ unitq (n_orn n)) ns →
  ∃ i, sum_inertia mass total ns = Ok i ∧ mtrans i = i ∧
    ∀ u, s_sum (node_solid <$> ns) (λ p, mass / total * lsq (cross3 u p)) (dot3 u (mvec i u)).
Proof.
  intros T. induction 1 as [|n ns [P Q] F (i & E & S & I)].
  - exists mat0. split_and!; [done|done|]. intros u. exists nil. split; [constructor|].
    unfold mat0, mvec, dot3. simpl. ring.
  - destruct (plain_volume _ P) as (w & Ew & W & C).
    destruct (plain_inertia _ (mass * (w / total)) P) as (j & Ej & Ij). simpl.
    unfold node_inertia. rewrite Ew. simpl. rewrite Ej. simpl. rewrite E. simpl. eexists. split; [done|].
    pose proof (moved_inertia (n_orn n) (n_pos n) _ w _ _ (good_plain _ P) Q C Ij) as (Sm & v' & V' & V0' & Im).
    split; [by rewrite mtrans_madd, Sm, S|]. intros u.
    assert (v' = w) as ->.
    { eapply (g_unique (prim_solid (n_shape n))); [by apply good_plain|exact V'|apply C]. }
    destruct (I u) as (l & Fl & El).
    eexists (_ :: l). split.
    + constructor; [|exact Fl]. eapply g_ext; [by apply good_moved, good_plain| |apply (Im u)].
      intros p. simpl. field. split; lra.
    + rewrite mvec_madd, dot_add_r, El. done.
Qed.
Lemma compound_ok ns mass : ns ≠ [] → Forall (λ n, plain (n_shape n) ∧ unitq (n_orn n)) ns →
  ∃ v i, compound_volume ns = Ok v ∧ is_volume (s_sum (node_solid <$> ns)) v ∧
    compound_inertia ns mass = Ok i ∧ is_inertia (s_sum (node_solid <$> ns)) mass i.
Proof.
  intros N F. destruct (compound_volume_ok ns) as (v & E & V & V0 & _); [by eapply Forall_impl; [exact F|]; intros ? []|].
  specialize (V0 N). destruct (sum_inertia_ok mass v ns V0 F) as (i & Ei & S & I).
  exists v, i. unfold compound_inertia. rewrite E. simpl. split_and!; try done.
  split; [done|]. exists v. split; [done|]. split; [lra|done].
Qed.

(** * Capsules *)
Definition capsule_excess (mass r hl : R) : R :=
  9 / 64 * (mass * sphere_volume r / (cylinder_volume r (hl * 2) + sphere_volume r)) * (r * r).
Lemma capsule_x mass r hl : 0 < r → 0 < hl →
  inertia_solid_capsule mass (hl * 2) r AX =
  V3 (capsule_xx mass r hl) (capsule_yy mass r hl + capsule_excess mass r hl) (capsule_yy mass r hl + capsule_excess mass r hl).
Proof.
  intros P Q. pose proof PI_RGT_0 as PP.
  assert (0 < hl * (r * r)) by (repeat apply Rmult_lt_0_compat; done).
  assert (0 < r * r * r) by (repeat apply Rmult_lt_0_compat; done).
  assert (2 * hl * (r * r) + 4 / 3 * (r * r * r) ≠ 0) by lra.
  unfold inertia_solid_capsule, capsule_xx, capsule_yy, capsule_excess, inertia_solid_sphere, inertia_solid_cylinder.
  replace (cylinder_volume r (hl * 2)) with (PI * (2 * hl * (r * r))) by (unfold cylinder_volume; ring).
  replace (sphere_volume r) with (PI * (4 / 3 * (r * r * r))) by (unfold sphere_volume; field).
  assert (PI * (2 * hl * (r * r)) + PI * (4 / 3 * (r * r * r)) ≠ 0) by nra.
  simpl. f_equal; field; split_and!; lra.
Qed.
