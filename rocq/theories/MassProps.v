(** C57, C58, C59: volumes and centroids, moments of inertia, the centre of mass. *)
From Coquelicot Require Import Coquelicot.
From Verif Require Import Outcome BoxModel GeoModel RotSpec RotProofs MassModel MassSpec MassProofs MassProofs2 MassProofs3 MassProofs4 MassProofs5 MassProofs6.
From Coq Require Import Reals Lra Psatz.
Local Open Scope R_scope.

(** * C57 *)
(** The volume of a shape is the integral of one over its solid. *)
Theorem C57_volume p v : prim_volume p = Ok v →
  match p with
  | PBox h => 0 <= vx h → 0 <= vy h → 0 <= vz h → is_volume (s_box h) v
  | PSphere r => 0 < r → is_volume (s_sphere r) v
  | PCylinder r hl a => 0 <= hl → is_volume (s_cylinder a r hl) v
  | PCapsule r hl a => 0 < r → 0 < hl → is_volume (s_capsule a r hl) v
  | PPoly m => ∀ ps, describes (m_verts m) (m_idx m) (m_faces m) ps → Forall (λ p, 3 <= length p)%nat ps →
      is_volume (s_mesh (ps ≫= polygon_tris)) v
  end.
Proof.
  destruct p as [h|r|r hl a|r hl a|m]; simpl.
  - intros [= <-]. apply box_volume_ok.
  - intros [= <-]. apply sphere_volume_ok.
  - intros [= <-]. apply cylinder_volume_ok.
  - intros [= <-]. apply capsule_volume_ok.
  - intros E ps D F. destruct (mesh_volume_ok m ps D F) as (v' & E' & V & _). assert (v = v') as -> by congruence. exact V.
Qed.
Print Assumptions C57_volume.
(** Every mesh whose faces have three or more vertices has a volume. *)
Theorem C57_mesh_total m ps : describes (m_verts m) (m_idx m) (m_faces m) ps → Forall (λ p, 3 <= length p)%nat ps →
  ∃ v, mesh_volume m = Ok v.
Proof. intros D F. destruct (mesh_volume_ok m ps D F) as (v & E & _). eauto. Qed.
Print Assumptions C57_mesh_total.
(** Moving a closed mesh does not change its volume. *)
Theorem C57_volume_moved m ps d v : describes (m_verts m) (m_idx m) (m_faces m) ps → Forall (λ p, 3 <= length p)%nat ps →
  closed_polys ps → mesh_volume m = Ok v →
  mesh_volume (Mesh ((λ x, (x - d)%V) <$> m_verts m) (m_idx m) (m_faces m)) = Ok v.
Proof.
  intros D F C E. destruct (mesh_volume_ok m ps D F) as (v' & E' & _ & Ev).
  destruct (mesh_volume_ok (Mesh ((λ x, (x - d)%V) <$> m_verts m) (m_idx m) (m_faces m)) (shift_polys d ps)) as (w & Ew & _ & E2);
    [by apply shift_describes|by apply shift_lengths|]. rewrite shift_volume in E2 by done. congruence.
Qed.
Print Assumptions C57_volume_moved.
(** The centroid of a closed mesh is the mean position over its solid. *)
Theorem C57_centroid m ps v : describes (m_verts m) (m_idx m) (m_faces m) ps → Forall (λ p, 3 <= length p)%nat ps →
  closed_polys ps → mesh_volume m = Ok v → v ≠ 0 →
  ∃ c, mesh_centroid m = Ok c ∧ is_centroid (s_mesh (ps ≫= polygon_tris)) v c.
Proof.
  intros D F C E V. destruct (mesh_volume_ok m ps D F) as (v' & E' & _ & Ev).
  assert (v' = v) as -> by congruence. rewrite Ev in V |- *.
  apply mesh_centroid_ok; try done. intros Z. rewrite Z in V. lra.
Qed.
Print Assumptions C57_centroid.
(** Initialising a convex mesh puts the centroid at its origin. *)
Theorem C57_recentred m ps v : describes (m_verts m) (m_idx m) (m_faces m) ps → Forall (λ p, 3 <= length p)%nat ps →
  closed_polys ps → mesh_volume m = Ok v → v ≠ 0 →
  ∃ m' c, shift_to_centroid m = Ok m' ∧ m_verts m' = (λ x, (x - c)%V) <$> m_verts m ∧
    let ps' := (λ p : list v3, (λ x, (x - c)%V) <$> p) <$> ps in
    describes (m_verts m') (m_idx m') (m_faces m') ps' ∧ closed_polys ps' ∧
    is_centroid (s_mesh (ps' ≫= polygon_tris)) v vec0 ∧ mesh_centroid m' = Ok vec0.
Proof.
  intros D F C E V. destruct (mesh_volume_ok m ps D F) as (v' & E' & _ & Ev).
  assert (v' = v) as -> by congruence. rewrite Ev in V |- *.
  destruct (shift_to_centroid_ok m ps D F C) as (m' & c & ps' & E1 & E2 & E3 & D' & C' & G & Z); [intros X; rewrite X in V; lra|].
  exists m', c. split; [done|]. unfold shift_to_centroid in E1. rewrite E2 in E1. simpl in E1. injection E1 as <-.
  split; [done|]. subst ps'. split_and!; done.
Qed.
Print Assumptions C57_recentred.
(** The mesh made for a box has its volume, centroid and moments of inertia. *)
Theorem C57_box_mesh mass h : 0 < vx h → 0 < vy h → 0 < vz h →
  mesh_volume (box_mesh h) = prim_volume (PBox h) ∧ mesh_centroid (box_mesh h) = Ok vec0 ∧
  inertia_polyhedron mass (box_mesh h) = prim_inertia (PBox h) mass.
Proof. apply box_mesh_ok. Qed.
Print Assumptions C57_box_mesh.
(** The volume of a compound is the sum over its parts. *)
Theorem C57_compound ns : Forall (λ n, plain (n_shape n)) ns →
  ∃ v, compound_volume ns = Ok v ∧ is_volume (s_sum (node_solid <$> ns)) v.
Proof. intros F. destruct (compound_volume_ok ns F) as (v & E & V & _). eauto. Qed.
Print Assumptions C57_compound.
Example C57_cases :
  describes (m_verts corner) (m_idx corner) (m_faces corner) corner_polys ∧
  Forall (λ p, 3 <= length p)%nat corner_polys ∧ closed_polys corner_polys ∧
  mesh_volume corner = Ok (1 / 6) ∧ 1 / 6 ≠ 0.
Proof.
  split_and!; [apply corner_describes|apply corner_lengths|apply corner_closed| |lra].
  destruct (mesh_volume_ok _ _ corner_describes corner_lengths) as (v & -> & _ & ->). by rewrite corner_vol.
Qed.
(** Face tables that are not usable are noticed or undefined. *)
Example C57_bad_tables :
  mesh_volume (Mesh [] [] [0; 2]%nat) = AssertFail ∧ mesh_volume (Mesh [] [] [0; 3]%nat) = UB ∧
  mesh_volume (Mesh [] [] [7]%nat) = AssertFail.
Proof. done. Qed.

(** * C58 *)
(** Boxes, spheres and cylinders: the tensor gives the moment of inertia about
    every axis through the centre. *)
Theorem C58_plain p mass : plain p → ∃ i, prim_inertia p mass = Ok i ∧ is_inertia (prim_solid p) mass i.
Proof. apply plain_inertia. Qed.
Print Assumptions C58_plain.
(** There is only one right tensor. *)
Theorem C58_unique p mass i j : plain p → is_inertia (prim_solid p) mass i → is_inertia (prim_solid p) mass j → i = j.
Proof. intros P. apply inertia_unique. by apply good_plain. Qed.
Print Assumptions C58_unique.
Theorem C58_hollow_cylinder a inner outer hl mass : 0 < inner → inner < outer → 0 < hl →
  is_inertia (s_minus (s_cylinder a outer hl) (s_cylinder a inner hl)) mass
    (mdiag (inertia_hollow_cylinder mass (hl * 2) inner outer a)).
Proof. apply hollow_ok. Qed.
Print Assumptions C58_hollow_cylinder.
(** Capsules along x: right about the axis, too large across it. *)
Theorem C58_capsule_x r hl mass : 0 < r → 0 < hl →
  ∃ xx yy, is_inertia (s_capsule AX r hl) mass (mdiag (V3 xx yy yy)) ∧
    let sphere_mass := mass * sphere_volume r / (cylinder_volume r (hl * 2) + sphere_volume r) in
    let e := 9 / 64 * sphere_mass * (r * r) in
    prim_inertia (PCapsule r hl AX) mass = Ok (mdiag (V3 xx (yy + e) (yy + e))).
Proof.
  intros P Q. exists (capsule_xx mass r hl), (capsule_yy mass r hl).
  split; [apply (capsule_inertia_true AX); done|]. unfold prim_inertia. cbv zeta. rewrite capsule_x by done. done.
Qed.
Print Assumptions C58_capsule_x.
(** The tensor is wrong for every capsule. *)
Theorem C58_capsule_refuted a r hl mass : 0 < mass → 0 < r → 0 < hl →
  ∃ i, prim_inertia (PCapsule r hl a) mass = Ok i ∧ ¬ is_inertia (s_capsule a r hl) mass i.
Proof. intros M P Q. eexists. split; [done|]. by apply capsule_wrong. Qed.
Print Assumptions C58_capsule_refuted.
(** For axis y the terms of the cylinder about and across the axis are exchanged. *)
Theorem C58_capsule_axis r hl mass i j : prim_inertia (PCapsule r hl AX) mass = Ok i → prim_inertia (PCapsule r hl AY) mass = Ok j →
  let m := mass * cylinder_volume r (hl * 2) / (cylinder_volume r (hl * 2) + sphere_volume r) in
  let d := 1 / 12 * m * (3 * r * r + hl * 2 * (hl * 2)) - 1 / 2 * m * r * r in
  vy (r1 j) = vx (r0 i) + d ∧ vx (r0 j) = vy (r1 i) - d.
Proof.
  unfold prim_inertia. rewrite capsule_y. cbv zeta. intros [= <-] [= <-].
  unfold mdiag. simpl. fold (cyl_gap mass r hl). done.
Qed.
Print Assumptions C58_capsule_axis.
(** Convex meshes: the moments about the coordinate axes are right, the products
    of inertia have the wrong sign. *)
Theorem C58_polyhedron mass m ps v : describes (m_verts m) (m_idx m) (m_faces m) ps → Forall (λ p, 3 <= length p)%nat ps →
  mesh_volume m = Ok v → v ≠ 0 →
  ∃ i, inertia_polyhedron mass m = Ok i ∧ is_inertia (s_mesh (ps ≫= polygon_tris)) mass (flip_off i).
Proof.
  intros D F E V. destruct (mesh_volume_ok m ps D F) as (v' & E' & _ & Ev).
  assert (v' = v) as -> by congruence. apply polyhedron_ok; try done. intros Z. rewrite Z in Ev. lra.
Qed.
Print Assumptions C58_polyhedron.
Theorem C58_polyhedron_refuted : ∃ m' i, shift_to_centroid corner = Ok m' ∧ inertia_polyhedron 1 m' = Ok i ∧
  ∃ ps, describes (m_verts m') (m_idx m') (m_faces m') ps ∧ closed_polys ps ∧
  is_centroid (s_mesh (ps ≫= polygon_tris)) (1 / 6) vec0 ∧ ¬ is_inertia (s_mesh (ps ≫= polygon_tris)) 1 i.
Proof. exact corner_wrong. Qed.
Print Assumptions C58_polyhedron_refuted.
(** The parallel axis theorem: the tensor of a shape turned and moved. *)
Theorem C58_shift p mass q d i : plain p → unitq q → prim_inertia p mass = Ok i →
  is_inertia (s_moved q d (prim_solid p)) mass
    (shift_inertia (mmul (mmul (to_matrix q) i) (mtrans (to_matrix q))) mass d).
Proof.
  intros P Q E. destruct (plain_inertia p mass P) as (j & E' & I). assert (j = i) as -> by congruence.
  destruct (plain_volume p P) as (v & _ & _ & C). eapply moved_inertia; try done. by apply good_plain.
Qed.
Print Assumptions C58_shift.
(** Compounds of boxes, spheres and cylinders. *)
Theorem C58_compound ns mass : ns ≠ [] → Forall (λ n, plain (n_shape n) ∧ unitq (n_orn n)) ns →
  ∃ i, compound_inertia ns mass = Ok i ∧ is_inertia (s_sum (node_solid <$> ns)) mass i.
Proof. intros N F. destruct (compound_ok ns mass N F) as (v & i & _ & _ & E & I). eauto. Qed.
Print Assumptions C58_compound.
(** The inverse tensor in world space is the inverse of the tensor of the turned
    body. *)
Theorem C58_world p mass q i i_inv : plain p → unitq q → prim_inertia p mass = Ok i → mmul i i_inv = mid →
  ∃ w, is_inertia (s_moved q vec0 (prim_solid p)) mass w ∧ mmul w (world_inertia_inv q i_inv) = mid.
Proof.
  intros P Q E J. destruct (plain_inertia p mass P) as (j & E' & I). assert (j = i) as -> by congruence.
  destruct (plain_volume p P) as (v & _ & _ & C).
  eexists. split; [eapply turned_inertia; try done; by apply good_plain|]. by apply world_inverse.
Qed.
Print Assumptions C58_world.
Example C58_cases : plain (PBox (V3 1 2 3)) ∧ plain (PSphere 1) ∧ plain (PCylinder 1 2 AY) ∧ unitq (Quat 0 0 0 1) ∧
  prim_inertia (PSphere 1) 5 = Ok (mscale (2 / 5 * 5 * 1 * 1) mid).
Proof. unfold plain, unitq, qlsq. simpl. split_and!; try lra; done. Qed.

(** * C59 *)
(** Changing the centre of mass keeps the origin of the body and the velocity of
    every material point, and places the body at the new centre of mass. *)
Theorem C59_apply b com : tidy b → ∃ b', apply_com b com = Ok b' ∧
  b_pos b' = to_world com (body_origin b) (b_orn b) ∧ body_origin b' = body_origin b ∧
  (∀ x, velocity_at b' x = velocity_at b x) ∧ b_orn b' = b_orn b ∧ b_ang b' = b_ang b ∧
  default vec0 (b_com b') = com ∧ (com = vec0 → b_com b' = None ∧ b_origin b' = None).
Proof.
  intros T. destruct (apply_com_ok b com T) as (b' & E & P & O & A & L & Z & N & Or & T').
  exists b'. split_and!; try done.
  - intros x. unfold velocity_at. rewrite L, A. apply point_velocity.
  - destruct (reqb (vx com) 0 && reqb (vy com) 0 && reqb (vz com) 0) eqn:X.
    + apply zero_test in X. by rewrite Z.
    + rewrite N; [done|]. intros X'. apply zero_test in X'. congruence.
  - intros X. rewrite (Z X). split; [done|]. rewrite T'. by rewrite (Z X).
Qed.
Print Assumptions C59_apply.
(** Only the last centre of mass matters. *)
Theorem C59_last b c1 c2 b1 : tidy b → apply_com b c1 = Ok b1 → apply_com b1 c2 = apply_com b c2.
Proof. apply apply_twice. Qed.
Print Assumptions C59_last.
Theorem C59_set_origin b o : tidy b → body_origin (set_origin b o) = o ∧ b_lin (set_origin b o) = b_lin b ∧
  b_ang (set_origin b o) = b_ang b ∧ b_orn (set_origin b o) = b_orn b ∧ b_com (set_origin b o) = b_com b.
Proof. intros T. destruct (set_origin_ok b o T) as [_ O]. unfold set_origin in *. by destruct (b_com b). Qed.
Print Assumptions C59_set_origin.
(** A new body is at the given position, and through every later change collision
    detection uses the origin of the body. *)
Theorem C59_origin pos orn lin ang com os : ∃ b0 b, make_body pos orn lin ang com None = Ok b0 ∧ body_origin b0 = pos ∧
  com_run (Ok b0) os = Ok b ∧ collision_origin b = body_origin b.
Proof.
  destruct (make_tidy pos orn lin ang com) as (b0 & E & T & O). destruct (run_tidy b0 os T) as (b & R & T').
  exists b0, b. split_and!; try done. by apply tidy_origin.
Qed.
Print Assumptions C59_origin.
(** Turning an entity that had a centre of mass into a body again: its old origin
    stays, collisions happen there; with a centre of mass it is undefined. *)
Theorem C59_reuse_refuted : ∃ pos orn com b, make_body pos orn vec0 vec0 (Some com) None = Ok b ∧ unitq orn ∧
  (∃ b', make_body (V3 9 9 9) orn vec0 vec0 None (clear_body b) = Ok b' ∧
     body_origin b' = V3 9 9 9 ∧ collision_origin b' = vec0) ∧
  make_body (V3 9 9 9) orn vec0 vec0 (Some com) (clear_body b) = UB.
Proof.
  exists vec0, (Quat 0 0 0 1), (V3 1 0 0).
  assert (reqb (vx (V3 1 0 0)) 0 && reqb (vy (V3 1 0 0)) 0 && reqb (vz (V3 1 0 0)) 0 = false) as Z.
  { destruct (_ && _) eqn:E; [|done]. apply zero_test in E. injection E. lra. }
  unfold make_body, apply_com. rewrite Z. simpl. eexists. split; [done|]. split; [unfold unitq, qlsq; simpl; lra|]. simpl.
  split; [|done]. eexists. split; [done|]. split; [done|]. unfold collision_origin, clear_body. simpl.
  by rewrite neg_zero, to_world_zero.
Qed.
Print Assumptions C59_reuse_refuted.
Example C59_cases : tidy (Body vec0 (Quat 0 0 0 1) (V3 1 0 0) (V3 0 1 0) None None).
Proof. done. Qed.
