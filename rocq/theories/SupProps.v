(** C69-C71: bounding boxes of shapes, compounds and islands, and support points. *)
From Verif Require Import Outcome BoxModel GeoModel RotSpec RotProofs NearModel NearSpec NearProofs RayModel RaySpec RayProofs RayProofs2 RayProofs3 RayProps SupModel SupSpec SupProofs SupProofs2 SupProofs3 SupProofs4.
From Coq Require Import Reals Lra Psatz Lia.
Local Open Scope R_scope.

(** * C69: the bounding box of a shape *)

(** The box of a sphere, box, capsule, cylinder or polyhedron contains all of it
    and is contained in every box that does. *)
Theorem C69_least s pos orn : qlsq orn = 1 → part_ok s pos orn →
  least_box (part_aabb s pos orn) (part_set s pos orn).
Proof. exact (part_aabb_ok s pos orn). Qed.

(** Whatever the axis, the box of a cylinder enlarged by [2 r sqrt eps] contains it *)
Theorem C69_cylinder_margin r hl a pos orn : qlsq orn = 1 → 0 <= r → 0 <= hl →
  encloses (grown (2 * r * sqrt eps) (cylinder_aabb r hl a pos orn)) (cylinder pos (axis_vec_q a orn) r hl).
Proof. exact (cylinder_aabb_near r hl a pos orn). Qed.

(** The box from the vertices of a polyhedron that were turned beforehand *)
Theorem C69_rotated vs pos orn : qlsq orn = 1 → vs ≠ [] → in_range (rotate orn <$> vs) →
  least_box (rotated_aabb (rotate orn <$> vs) pos) (placed pos orn (hull vs)).
Proof. exact (rotated_aabb_ok vs pos orn). Qed.

(** The box of a plane has all of the half-space below it that is within 99999
    of the foot of the plane in every coordinate. *)
Theorem C69_plane n k x : below n k x → near3 99999 x (scl k n) → in_aabb (plane_aabb n k) x.
Proof. exact (plane_aabb_ok n k x). Qed.

(** The box of a mesh that is not turned *)
Theorem C69_mesh b S pos : least_box b S → least_box (mesh_aabb b pos qid) (placed pos qid S).
Proof.
  intros H. apply (least_moved _ _ pos) in H. revert H. apply least_ext. intros x. rewrite placed_iff by apply unit_qid. unfold to_object.
  assert (qconj qid = qid) as -> by (unfold qconj, qid; simpl; f_equal; ring). rewrite rotate_qid. done.
Qed.

(** A cylinder whose axis is nearly an axis of the world sticks out of its box *)
Definition near_q : quat := Quat 0 0 (40000 / 400000001) (399999999 / 400000001).
Lemma near_q_unit : qlsq near_q = 1.
Proof. unfold qlsq, near_q; simpl. field. Qed.
Theorem C69_cylinder_refuted : ∃ r hl a pos orn x,
  qlsq orn = 1 ∧ 0 < r ∧ 0 < hl ∧ cylinder pos (axis_vec_q a orn) r hl x ∧ ¬ in_aabb (cylinder_aabb r hl a pos orn) x.
Proof.
  exists 1, 1, AX, vec0, near_q, (to_world (V3 1 (-1) 0) vec0 near_q). split; [apply near_q_unit|]. split; [lra|]. split; [lra|]. split.
  - apply placed_cylinder; [apply near_q_unit|lra|]. exists (V3 1 (-1) 0). split; [|done]. unfold lcyl, planar; simpl. lra.
  - intros [_ [H _]]. revert H. unfold cylinder_aabb. cbn [bmax]. unfold cylinder_point_q, cylinder_point.
    set (d := rotate (qconj near_q) ex).
    assert (E : rltb eps (el (next AX) d * el (next AX) d + el (next (next AX)) d * el (next (next AX)) d) = false).
    { apply rltb_false. unfold d, rotate, qconj, near_q, ex, eps; simpl. lra. }
    assert (E2 : rltb (el AX d) 0 = false).
    { apply rltb_false. unfold d, rotate, qconj, near_q, ex; simpl. lra. }
    cbv zeta. rewrite E, E2. clear E E2 d. unfold to_world, rotate, near_q, with_el, vec0, add3; simpl. lra.
Qed.

(** The half-space of a plane is cut off *)
Theorem C69_plane_refuted : ∃ n k x, unit3 n ∧ below n k x ∧ ¬ in_aabb (plane_aabb n k) x.
Proof.
  exists ey, 0, (V3 200000 (-1) 0). split; [apply unit_ey|]. split; [unfold below, dot3, ey; simpl; lra|].
  intros [_ [H _]]. revert H. unfold plane_aabb.
  assert (F : ∀ v w, v ≠ w → v3_eqb v w = false).
  { intros v w H. destruct (v3_eqb v w) eqn:E; [|done]. apply v3_eqb_true in E. done. }
  assert (T : v3_eqb ey ey = true) by (unfold v3_eqb, reqb; repeat destruct Req_EM_T; done).
  rewrite (F ey ex), (F ey (neg3 ex)), T; [unfold scl, add3, ey; simpl; lra|unfold ey, ex, neg3; simpl; intros [=]; lra..].
Qed.

(** A mesh that is turned sticks out of its box *)
Theorem C69_mesh_refuted : ∃ b S pos orn x,
  least_box b S ∧ qlsq orn = 1 ∧ placed pos orn S x ∧ ¬ in_aabb (mesh_aabb b pos orn) x.
Proof.
  set (b := Box (V3 0 0 0) (V3 1 1 1) : box).
  exists b, (in_aabb b), vec0, (Quat 0 0 1 0), (V3 (-1) 0 0). split; [apply least_self; unfold valid, le3, b; simpl; lra|].
  split; [unfold qlsq; simpl; ring|]. split.
  - exists (V3 1 0 0). split; [unfold in_aabb, le3, b; simpl; lra|]. unfold to_world, rotate, vec0, add3; simpl. f_equal; ring.
  - intros [[H _] _]. revert H. unfold mesh_aabb, add3, vec0, b; simpl. lra.
Qed.

(** No vertices give a box that is inside out *)
Theorem C69_no_vertices_refuted : ¬ valid (cloud_aabb []).
Proof.
  intros [H _]. revert H. unfold cloud_aabb; simpl. pose proof scalar_max_big. assert (0 < 10 ^ 30) by (apply pow_lt; lra). lra.
Qed.

Lemma axes_clear_x : axes_clear (axis_vec_q AX qid).
Proof.
  unfold axis_vec_q. rewrite rotate_qid. intros e He. pose proof eps_small. unfold off_axis.
  apply elem_of_cons in He as [->|He]; [left; unfold lsq, dot3, axis_vec, ex; simpl; ring|].
  apply elem_of_cons in He as [->|He]; [right; unfold lsq, dot3, axis_vec, ex, ey; simpl; lra|].
  apply elem_of_list_singleton in He as ->. right; unfold lsq, dot3, axis_vec, ex, ez; simpl; lra.
Qed.
Example C69_case : least_box (cylinder_aabb 2 3 AX (V3 1 1 1) qid) (cylinder (V3 1 1 1) (axis_vec_q AX qid) 2 3).
Proof. apply (C69_least (SCylinder 2 3 AX)); [apply unit_qid|]. simpl. split; [lra|]. split; [lra|]. apply axes_clear_x. Qed.
Example C69_box_case : least_box (box_aabb (V3 1 2 3) (V3 5 0 0) near_q) (placed (V3 5 0 0) near_q (in_box (V3 1 2 3))).
Proof. apply (C69_least (SBox (V3 1 2 3))); [apply near_q_unit|]. simpl. lra. Qed.

(** * C70: boxes of boxes *)

(** Turning a box into or out of the space of a body gives the least box around it *)
Theorem C70_to_world b pos orn : qlsq orn = 1 → valid b →
  least_box (aabb_to_world b pos orn) (placed pos orn (in_aabb b)).
Proof. exact (aabb_to_world_ok b pos orn). Qed.
Theorem C70_to_object b pos orn : qlsq orn = 1 → valid b →
  least_box (aabb_to_object b pos orn) (λ x, in_aabb b (to_world x pos orn)).
Proof. exact (aabb_to_object_ok b pos orn). Qed.

(** The box of a compound contains all of its parts, and it is the least box
    around the turned boxes of the parts. *)
Theorem C70_compound nodes pos orn : qlsq orn = 1 → nodes ≠ [] → (∀ n, n ∈ nodes → node_ok n) →
  ∃ b, compound_aabb nodes pos orn = Ok b ∧
    least_box b (placed pos orn (λ x, ∃ n, n ∈ nodes ∧ in_aabb (node_aabb n) x)) ∧
    encloses b (placed pos orn (λ x, ∃ n, n ∈ nodes ∧ node_set n x)).
Proof. exact (compound_aabb_ok nodes pos orn). Qed.
Theorem C70_no_parts pos orn : compound_aabb [] pos orn = UB.
Proof. done. Qed.

(** The box of an island is the least one around the boxes of its procedural
    bodies; without any it stays. *)
Theorem C70_island old nodes :
  (∀ c, c ∈ island_boxes nodes → valid c) →
  (island_boxes nodes = [] → island_aabb old nodes = old) ∧
  (island_boxes nodes ≠ [] → least_box (island_aabb old nodes) (λ x, ∃ c, c ∈ island_boxes nodes ∧ in_aabb c x)).
Proof. exact (island_aabb_ok old nodes). Qed.

(** The box of a turned compound need not be least: a ball of radius 1 at half of a right angle *)
Definition turn_q : quat := Quat 0 0 (3 / 5) (4 / 5).
Theorem C70_compound_least_refuted : ∃ nodes pos orn b,
  qlsq orn = 1 ∧ (∀ n, n ∈ nodes → node_ok n) ∧ compound_aabb nodes pos orn = Ok b ∧
  ¬ least_box b (placed pos orn (λ x, ∃ n, n ∈ nodes ∧ node_set n x)).
Proof.
  assert (U : qlsq turn_q = 1) by (unfold qlsq, turn_q; simpl; field).
  exists [SNode (SSphere 1) vec0 qid], vec0, turn_q. eexists. split; [done|]. split.
  { intros n ->%elem_of_list_singleton. split; [apply unit_qid|]. simpl. lra. }
  split; [done|]. intros [_ H]. destruct (H (sphere_aabb 1 vec0)) as [[H1 _] _].
  - intros x (y & (n & ->%elem_of_list_singleton & Hy) & ->). simpl in Hy. apply (proj1 (sphere_aabb_ok 1 vec0 ltac:(lra))).
    unfold node_set, part_set in Hy. simpl in Hy. unfold ball, GeoModel.dist, len in *. replace (lsq (sub3 (to_world y vec0 turn_q) vec0)) with (lsq (sub3 y vec0)); [done|].
    replace (sub3 y vec0) with y by (destruct y; unfold sub3, vec0; simpl; f_equal; ring).
    replace (sub3 (to_world y vec0 turn_q) vec0) with (rotate turn_q y) by (unfold to_world; destruct (rotate turn_q y); unfold sub3, add3, vec0; simpl; f_equal; ring).
    unfold lsq. rewrite rotate_dot by done. done.
  - revert H1. simpl foldl. unfold node_aabb; simpl sn_shape. simpl sn_pos. simpl sn_orn. unfold part_aabb, aabb_to_world, turned_aabb. cbn [bmin].
    rewrite box_point_val. unfold sphere_aabb, box_center. cbn [bmin bmax]. unfold to_world, rotate, turn_q, qconj, ex, vec0, sub3, add3, scl; simpl.
    unfold Rabs. repeat destruct Rcase_abs; lra.
Qed.

(** * C71: support points *)
Theorem C71_box h d : 0 <= vx h → 0 <= vy h → 0 <= vz h → furthest (in_box h) d (support_point_box h d).
Proof. exact (box_furthest h d). Qed.
Theorem C71_points ps d : (∃ p, p ∈ ps ∧ - scalar_max < dot3 p d) →
  cloud_point ps d ∈ ps ∧ furthest (hull ps) d (cloud_point ps d) ∧ is_support (hull ps) d (cloud_projection ps d).
Proof.
  intros H. destruct (cloud_point_ok ps d H) as [A B]. split; [done|]. split; [done|]. apply cloud_projection_ok.
  destruct H as (p & Hp & L). exists p. split; [done|lra].
Qed.
Theorem C71_capsule v0 v1 r d : unit3 d → 0 <= r → is_support (capsule v0 v1 r) d (capsule_projection v0 v1 r d).
Proof. exact (capsule_support v0 v1 r d). Qed.
(** Exact along and well off the axis; otherwise short by at most [2 r sqrt eps] *)
Theorem C71_cylinder r hl a pos orn d : qlsq orn = 1 → 0 <= r → 0 <= hl →
  let C := cylinder pos (axis_vec_q a orn) r hl in
  let q := cylinder_point_at r hl a pos orn d in
  C q ∧ cylinder_projection r hl a pos orn d = dot3 q d ∧ (∀ x, C x → dot3 x d <= dot3 q d + 2 * r * sqrt eps) ∧
  (off_axis (axis_vec_q a orn) d = 0 ∨ eps < off_axis (axis_vec_q a orn) d → furthest C d q).
Proof.
  intros Hq Hr Hh C q. split; [apply cylinder_point_member; done|]. split; [apply cylinder_projection_eq; done|]. split.
  - intros x Hx. unfold q, cylinder_point_at. rewrite dot_add_l. apply cylinder_reach; done.
  - intros E. apply cylinder_furthest; done.
Qed.
Theorem C71_circle pos orn r a d : qlsq orn = 1 → 0 <= r →
  let D := on_disc pos (axis_vec_q a orn) r in
  let q := circle_point pos orn r a d in
  D q ∧ (∀ x, D x → dot3 x d <= dot3 q d + 2 * r * sqrt eps) ∧
  (off_axis (axis_vec_q a orn) d = 0 ∨ eps < off_axis (axis_vec_q a orn) d → furthest D d q).
Proof.
  intros Hq Hr D q. destruct (circle_short pos orn r a d Hq Hr) as [A B]. split; [done|]. split; [done|].
  intros E. apply circle_furthest; done.
Qed.
(** Climbing ends, at a vertex with no higher neighbour; that is the highest
    vertex if the edges at each vertex span the mesh. *)
Theorem C71_polyhedron vs ns ni d : vs ≠ [] → table_ok (length vs) ns ni →
  ∃ i v, polyhedron_projection vs ns ni d = Ok (dot3 v d) ∧ vs !! i = Some v ∧
    (∀ j w, adjacent ns ni i j → vs !! j = Some w → dot3 w d <= dot3 v d) ∧
    (edges_span vs ns ni → is_support (hull vs) d (dot3 v d)).
Proof.
  intros Hne T. destruct (polyhedron_local vs ns ni d Hne T) as (i & v & E & Ev & L). exists i, v. do 3 (split; [done|]).
  intros Sp. destruct (polyhedron_global vs ns ni d Hne T Sp) as (p & E' & Hp). rewrite E in E'. congruence.
Qed.
(** The feature of a triangle: its projection is the greatest one up to the
    threshold, and exactly for faces; a vertex stands out by the threshold, an
    edge has both ends within it and the third vertex below. *)
Theorem C71_triangle v0 v1 v2 pos dir t f0 k0 : 0 < t →
  let P v := dot3 (sub3 v pos) dir in
  - large_scalar < P v0 →
  let '(f, k, p) := triangle_feature v0 v1 v2 pos dir t f0 k0 in
  max_of3 (P v0) (P v1) (P v2) - t < p <= max_of3 (P v0) (P v1) (P v2) ∧
  match f with
  | FVertex => (k < 3)%nat ∧ p = P (pick3 k v0 v1 v2) ∧
      P (pick3 k v1 v2 v0) <= p - t ∧ P (pick3 k v2 v0 v1) <= p - t
  | FEdge => (k < 3)%nat ∧ p - t < P (pick3 k v0 v1 v2) < p + t ∧ p - t < P (pick3 k v1 v2 v0) < p + t ∧
      P (pick3 k v2 v0 v1) <= p - t
  | FFace => p = max_of3 (P v0) (P v1) (P v2) ∧ p - 2 * t < P v0 ∧ p - 2 * t < P v1 ∧ p - 2 * t < P v2
  end.
Proof. exact (triangle_feature_ok v0 v1 v2 pos dir t f0 k0). Qed.

(** The projection of an edge with the third vertex is not raised *)
Theorem C71_triangle_refuted : ∃ v0 v1 v2 pos dir t f0 k0, 0 < t ∧
  let P v := dot3 (sub3 v pos) dir in
  - large_scalar < P v0 ∧ snd (triangle_feature v0 v1 v2 pos dir t f0 k0) < max_of3 (P v0) (P v1) (P v2).
Proof.
  exists (V3 0 0 0), (V3 (-2) 0 0), (V3 (1 / 2) 1 0), vec0, ex, 1, FVertex, 0%nat. split; [lra|]. cbv beta zeta.
  assert (P0 : dot3 (sub3 (V3 0 0 0) vec0) ex = 0) by (unfold dot3, sub3, vec0, ex; simpl; ring).
  assert (P1 : dot3 (sub3 (V3 (-2) 0 0) vec0) ex = -2) by (unfold dot3, sub3, vec0, ex; simpl; ring).
  assert (P2 : dot3 (sub3 (V3 (1 / 2) 1 0) vec0) ex = 1 / 2) by (unfold dot3, sub3, vec0, ex; simpl; field).
  rewrite P0, P1, P2. split; [unfold large_scalar; lra|]. unfold triangle_feature, feature_step. simpl foldl. rewrite P0, P1, P2.
  cbn [andb].
  assert (rltb (- large_scalar) 0 = true) as -> by (apply rltb_true; unfold large_scalar; lra).
  assert (rltb (Rabs (-2 - 0)) 1 = false) as -> by (apply rltb_false; unfold Rabs; destruct Rcase_abs; lra).
  assert (rltb 0 (-2) = false) as -> by (apply rltb_false; lra).
  assert (rltb (Rabs (1 / 2 - 0)) 1 = true) as -> by (apply rltb_true; unfold Rabs; destruct Rcase_abs; lra).
  simpl. unfold max_of3, Rmax. repeat destruct Rle_dec; lra.
Qed.

(** A square: the opposite corner is the sum of two edges *)
Definition sq_vs : list v3 := [V3 0 0 0; V3 1 0 0; V3 1 1 0; V3 0 1 0].
Definition sq_ns : list nat := [0; 2; 4; 6; 8]%nat.
Definition sq_ni : list nat := [1; 3; 2; 0; 3; 1; 0; 2]%nat.
Lemma sq_table : table_ok (length sq_vs) sq_ns sq_ni.
Proof.
  split; [done|]. split.
  - intros i a b Ha Hb. do 4 (destruct i as [|i]; [simpl in Hb; simplify_eq; simpl; lia|]). destruct i; done.
  - intros k j Hk. do 8 (destruct k as [|k]; [simpl in Hk; simplify_eq; simpl; lia|]). done.
Qed.
Lemma sq_adj i j : (i < 4)%nat → (j = (i + 1) mod 4 ∨ j = (i + 3) mod 4)%nat → adjacent sq_ns sq_ni i j.
Proof.
  intros Hi Hj.
  assert (C : i = 0%nat ∨ i = 1%nat ∨ i = 2%nat ∨ i = 3%nat) by lia.
  destruct C as [->|[->|[->| ->]]]; destruct Hj as [->| ->]; simpl.
  - exists 0%nat, 2%nat, 0%nat. repeat split; lia.
  - exists 0%nat, 2%nat, 1%nat. repeat split; lia.
  - exists 2%nat, 4%nat, 2%nat. repeat split; lia.
  - exists 2%nat, 4%nat, 3%nat. repeat split; lia.
  - exists 4%nat, 6%nat, 4%nat. repeat split; lia.
  - exists 4%nat, 6%nat, 5%nat. repeat split; lia.
  - exists 6%nat, 8%nat, 6%nat. repeat split; lia.
  - exists 6%nat, 8%nat, 7%nat. repeat split; lia.
Qed.
Lemma sq_span : edges_span sq_vs sq_ns sq_ni.
Proof.
  intros i j v w Hv Hw.
  assert (G : ∀ k u, (k = (i + 1) mod 4 ∨ k = (i + 3) mod 4)%nat → sq_vs !! k = Some u →
    cone (λ g, ∃ k u, adjacent sq_ns sq_ni i k ∧ sq_vs !! k = Some u ∧ g = sub3 u v) (sub3 u v)).
  { intros k u Hk Hu. replace (sub3 u v) with (add3 (scl 1 (sub3 u v)) (V3 0 0 0)) by (destruct u, v; unfold add3, scl, sub3; simpl; f_equal; ring).
    apply cone_step; [lra| |apply cone_zero]. exists k, u. split; [apply sq_adj; [apply lookup_lt_Some in Hv; done|done]|done]. }
  assert (Z : v = w → cone (λ g, ∃ k u, adjacent sq_ns sq_ni i k ∧ sq_vs !! k = Some u ∧ g = sub3 u v) (sub3 w v)).
  { intros ->. replace (sub3 w w) with (V3 0 0 0) by (destruct w; unfold sub3; simpl; f_equal; ring). apply cone_zero. }
  assert (O : ∀ k1 u1 k2 u2, k1 = ((i + 1) mod 4)%nat → k2 = ((i + 3) mod 4)%nat → sq_vs !! k1 = Some u1 → sq_vs !! k2 = Some u2 →
    sub3 w v = add3 (scl 1 (sub3 u1 v)) (add3 (scl 1 (sub3 u2 v)) (V3 0 0 0)) →
    cone (λ g, ∃ k u, adjacent sq_ns sq_ni i k ∧ sq_vs !! k = Some u ∧ g = sub3 u v) (sub3 w v)).
  { intros k1 u1 k2 u2 E1 E2 Hu1 Hu2 ->. pose proof (lookup_lt_Some _ _ _ Hv) as Li.
    apply cone_step; [lra|exists k1, u1; split; [apply sq_adj; [done|auto]|done]|].
    apply cone_step; [lra|exists k2, u2; split; [apply sq_adj; [done|auto]|done]|apply cone_zero]. }
  pose proof (lookup_lt_Some _ _ _ Hv) as Li. pose proof (lookup_lt_Some _ _ _ Hw) as Lj. simpl in Li, Lj.
  assert (Ci : i = 0%nat ∨ i = 1%nat ∨ i = 2%nat ∨ i = 3%nat) by lia.
  assert (Cj : j = 0%nat ∨ j = 1%nat ∨ j = 2%nat ∨ j = 3%nat) by lia.
  destruct Ci as [->|[->|[->| ->]]]; destruct Cj as [->|[->|[->| ->]]]; 
    pose proof Hv as Hv2; pose proof Hw as Hw2; simpl in Hv2, Hw2; injection Hv2 as <-; injection Hw2 as <-;
    first [solve [apply Z; reflexivity] | solve [eapply G; [|exact Hw]; simpl; auto] |
      eapply O; [reflexivity|reflexivity|simpl; reflexivity|simpl; reflexivity|unfold sub3, add3, scl; simpl; f_equal; ring]].
Qed.
Example C71_case : ∃ p, polyhedron_projection sq_vs sq_ns sq_ni (V3 1 2 0) = Ok p ∧ is_support (hull sq_vs) (V3 1 2 0) p.
Proof. apply polyhedron_global; [done|apply sq_table|apply sq_span]. Qed.

(** Climbing gets stuck where the edges do not span the mesh *)
Theorem C71_stuck_refuted : ∃ vs ns ni d p, vs ≠ [] ∧ table_ok (length vs) ns ni ∧
  polyhedron_projection vs ns ni d = Ok p ∧ ¬ is_support (hull vs) d p.
Proof.
  set (vs := [V3 1 0 0; V3 0 1 0; V3 2 2 0]). set (ns := [0; 1; 3; 4]%nat). set (ni := [1; 0; 2; 1]%nat).
  assert (T : table_ok (length vs) ns ni).
  { split; [done|]. split.
    - intros i a b Ha Hb. do 3 (destruct i as [|i]; [simpl in Hb; simplify_eq; simpl; lia|]). destruct i; done.
    - intros k j Hk. do 4 (destruct k as [|k]; [simpl in Hk; simplify_eq; simpl; lia|]). done. }
  exists vs, ns, ni, ex, 1. split; [done|]. split; [done|]. split.
  - unfold polyhedron_projection. cbn [vs lookup list_lookup opt_res mbind res_bind length]. rewrite bool_decide_eq_true_2 by done. cbn [assert_ mbind res_bind].
    unfold climb. rewrite dot_ex. cbn -[rltb dot3]. rewrite !dot_ex. cbn -[rltb].
    assert (rltb 1 0 = false) as -> by (apply rltb_false; lra). done.
  - intros [H _]. assert (V : V3 2 2 0 ∈ vs) by (unfold vs; set_solver). specialize (H (V3 2 2 0) (hull_in vs _ V)). rewrite dot_ex in H. simpl in H. lra.
Qed.

Print Assumptions C69_least.
Print Assumptions C69_cylinder_margin.
Print Assumptions C69_rotated.
Print Assumptions C69_plane.
Print Assumptions C69_mesh.
Print Assumptions C69_cylinder_refuted.
Print Assumptions C69_plane_refuted.
Print Assumptions C69_mesh_refuted.
Print Assumptions C69_no_vertices_refuted.
Print Assumptions C70_to_world.
Print Assumptions C70_to_object.
Print Assumptions C70_compound.
Print Assumptions C70_no_parts.
Print Assumptions C70_island.
Print Assumptions C70_compound_least_refuted.
Print Assumptions C71_box.
Print Assumptions C71_points.
Print Assumptions C71_capsule.
Print Assumptions C71_cylinder.
Print Assumptions C71_circle.
Print Assumptions C71_polyhedron.
Print Assumptions C71_triangle.
Print Assumptions C71_triangle_refuted.
Print Assumptions C71_stuck_refuted.
