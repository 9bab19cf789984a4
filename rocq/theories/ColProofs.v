(** Contacts of round shapes. *)
From Verif Require Import Outcome BoxModel GeoModel RotSpec RotProofs NearModel NearSpec NearProofs NearProofs2 RayModel RaySpec RayProofs2 RayProofs3
  SupModel SupSpec SupProofs ColModel ColSpec.
From Coq Require Import Reals Lra Psatz.
Local Open Scope R_scope.

Ltac vec := apply v3_eq; unfold add3, sub3, neg3, scl, div3, mul3; cbn [vx vy vz].

Lemma unit_lsq n : unit3 n → lsq n = 1.
Proof. done. Qed.
Lemma contact_ext (A A' B B' : v3 → Prop) pa pb n d :
  (∀ x, A x ↔ A' x) → (∀ x, B x ↔ B' x) → contact A B pa pb n d → contact A' B' pa pb n d.
Proof.
  intros HA HB (H1 & H2 & H3 & H4 & H5). split_and!; try done; [apply HA; done|apply HB; done|].
  intros a b Ha Hb. apply H5; [apply HA|apply HB]; done.
Qed.
(** ** What a contact means *)
Lemma contact_nearest (A B : v3 → Prop) pa pb n d : 0 <= d → contact A B pa pb n d →
  GeoModel.dist pa pb = d ∧ nearest_pair A B pa pb.
Proof.
  intros Hd (H1 & H2 & H3 & H4 & H5).
  assert (E : GeoModel.dist pa pb = d).
  { unfold GeoModel.dist. rewrite H4. unfold len. replace (lsq (scl d n)) with (d * d * lsq n) by (unfold lsq, dot3, scl; simpl; ring).
    rewrite (unit_lsq n H3), Rmult_1_r. apply sqrt_square. done. }
  split; [done|]. split_and!; try done. intros a b Ha Hb. rewrite E. specialize (H5 a b Ha Hb).
  pose proof (dot_le_len a b n H3). rewrite dot_sub_l in H5. lra.
Qed.
Lemma contact_depth (A B : v3 → Prop) pa pb n d s : contact A B pa pb n d → 0 < d + s →
  ∀ x, ¬ (moved (scl s n) A x ∧ B x).
Proof.
  intros (_ & _ & H3 & _ & H5) Hs x [Ha Hb]. specialize (H5 _ _ Ha Hb).
  replace (sub3 (sub3 x (scl s n)) x) with (scl (- s) n) in H5 by (vec; ring). rewrite dot_scl_l in H5.
  unfold unit3 in H3. rewrite H3 in H5. lra.
Qed.

(** ** From nearest points to contacts *)
Lemma nearest_gap (S T : v3 → Prop) x y : convex S → convex T → nearest_pair S T x y →
  ∀ a b, S a → T b → lsq (sub3 x y) <= dot3 (sub3 a b) (sub3 x y).
Proof.
  intros CS CT (Hx & Hy & N) a b Ha Hb.
  assert (F : ∀ t, 0 <= t <= 1 → lsq (sub3 x y) <= lsq (add3 (sub3 x y) (scl t (sub3 (sub3 a b) (sub3 x y))))).
  { intros t Ht. specialize (N _ _ (CS x a t Hx Ha Ht) (CT y b t Hy Hb Ht)). unfold GeoModel.dist in N.
    replace (sub3 (add3 x (scl t (sub3 a x))) (add3 y (scl t (sub3 b y))))
      with (add3 (sub3 x y) (scl t (sub3 (sub3 a b) (sub3 x y)))) in N by (vec; ring).
    rewrite <- !len_sq. pose proof (len_nonneg (sub3 x y)). nra. }
  set (u := sub3 x y) in *. set (w := sub3 (sub3 a b) u) in *.
  assert (E : dot3 (sub3 a b) u = lsq u + dot3 u w).
  { unfold w, lsq, dot3, sub3; cbn [vx vy vz]. ring. }
  rewrite E. assert (G : ∀ t, 0 <= t <= 1 → 0 <= 2 * t * dot3 u w + t * t * lsq w).
  { intros t Ht. specialize (F t Ht). replace (lsq (add3 u (scl t w))) with (lsq u + 2 * t * dot3 u w + t * t * lsq w) in F
      by (unfold lsq, dot3, add3, scl; cbn [vx vy vz]; ring). lra. }
  destruct (Rle_dec 0 (dot3 u w)) as [P|P]; [lra|]. exfalso.
  pose proof (lsq_nonneg w) as W. set (k := dot3 u w) in *. set (q := lsq w) in *. clearbody k q.
  destruct (Rle_dec q (- k)) as [Q|Q].
  - specialize (G 1). lra.
  - specialize (G (- k / q)). assert (0 < q) by lra.
    assert (0 <= - k / q <= 1). { split; [apply Rle_mult_inv_pos; lra|]. apply (Rmult_le_reg_r q); [lra|]. unfold Rdiv. rewrite Rmult_assoc, Rinv_l by lra. lra. }
    specialize (G H0). replace (2 * (- k / q) * k + - k / q * (- k / q) * q) with (- (k * k) / q) in G by (field; lra).
    assert (0 < k * k / q). { apply Rdiv_lt_0_compat; [nra|lra]. } unfold Rdiv in *. lra.
Qed.
Lemma len_pos v : 0 < lsq v → 0 < len v.
Proof. intros H. unfold len. apply sqrt_lt_R0. done. Qed.
Lemma unit_div v : 0 < lsq v → unit3 (div3 v (len v)).
Proof.
  intros H. pose proof (len_pos v H). pose proof (len_sq v) as E. change (lsq (div3 v (len v)) = 1).
  replace (lsq (div3 v (len v))) with (lsq v / (len v * len v)) by (unfold lsq, dot3, div3; cbn [vx vy vz]; field; lra).
  rewrite E. field. lra.
Qed.
Lemma scl_div v : 0 < lsq v → scl (len v) (div3 v (len v)) = v.
Proof. intros H. pose proof (len_pos v H). vec; field; lra. Qed.
Lemma div_scl v s : div3 v s = scl (/ s) v.
Proof. vec; unfold Rdiv; ring. Qed.

Lemma nearest_contact (S T : v3 → Prop) x y : convex S → convex T → nearest_pair S T x y → 0 < lsq (sub3 x y) →
  contact S T x y (div3 (sub3 x y) (len (sub3 x y))) (len (sub3 x y)).
Proof.
  intros CS CT N P. pose proof N as (Hx & Hy & _). split_and!; try done.
  - apply unit_div. done.
  - symmetry. apply scl_div. done.
  - intros a b Ha Hb. pose proof (nearest_gap S T x y CS CT N a b Ha Hb) as G.
    pose proof (len_pos _ P) as L. pose proof (len_sq (sub3 x y)) as E. rewrite div_scl, dot_scl_r.
    apply (Rmult_le_reg_l (len (sub3 x y))); [done|]. rewrite E, <- Rmult_assoc, Rinv_r, Rmult_1_l by lra. done.
Qed.
(** All nearest pairs have the same difference *)
Lemma nearest_same (S T : v3 → Prop) x y x' y' : convex S → convex T →
  nearest_pair S T x y → nearest_pair S T x' y' → sub3 x' y' = sub3 x y.
Proof.
  intros CS CT N (Hx' & Hy' & N'). pose proof N as (Hx & Hy & _).
  pose proof (nearest_gap S T x y CS CT N x' y' Hx' Hy') as G. specialize (N' x y Hx Hy).
  assert (L : lsq (sub3 x' y') <= lsq (sub3 x y)). { rewrite <- !len_sq. unfold GeoModel.dist in N'. pose proof (len_nonneg (sub3 x' y')). nra. }
  set (u := sub3 x y) in *. set (w := sub3 x' y') in *. clearbody u w.
  assert (Z : lsq (sub3 w u) = 0).
  { pose proof (lsq_nonneg (sub3 w u)). assert (lsq (sub3 w u) = lsq w - 2 * dot3 w u + lsq u) by (unfold lsq, dot3, sub3; cbn [vx vy vz]; ring). lra. }
  apply lsq_zero in Z. apply (f_equal vx) in Z as X; apply (f_equal vy) in Z as Y; apply (f_equal vz) in Z as Z'.
  unfold sub3, vec0 in X, Y, Z'; cbn [vx vy vz] in X, Y, Z'. apply v3_eq; lra.
Qed.

(** ** Rounding *)
Lemma rounded_contact (S T : v3 → Prop) x y n l ra rb : 0 <= ra → 0 <= rb → contact S T x y n l →
  contact (rounded S ra) (rounded T rb) (sub3 x (scl ra n)) (add3 y (scl rb n)) n (l - ra - rb).
Proof.
  intros Ra Rb (Hx & Hy & Hn & E & G).
  assert (L : ∀ r, 0 <= r → len (scl r n) = r).
  { intros r Hr. unfold len. replace (lsq (scl r n)) with (r * r * lsq n) by (unfold lsq, dot3, scl; cbn [vx vy vz]; ring).
    rewrite (unit_lsq n Hn), Rmult_1_r. apply sqrt_square. done. }
  split_and!; try done.
  - exists x. split; [done|]. unfold GeoModel.dist. replace (sub3 (sub3 x (scl ra n)) x) with (neg3 (scl ra n)) by (vec; ring).
    unfold len. replace (lsq (neg3 (scl ra n))) with (lsq (scl ra n)) by (unfold lsq, dot3, neg3; cbn [vx vy vz]; ring). fold (len (scl ra n)). rewrite L by done. lra.
  - exists y. split; [done|]. unfold GeoModel.dist. replace (sub3 (add3 y (scl rb n)) y) with (scl rb n) by (vec; ring). rewrite L by done. lra.
  - assert (E' := E). apply (f_equal vx) in E as X; apply (f_equal vy) in E as Y; apply (f_equal vz) in E as Z.
    unfold sub3, scl in X, Y, Z; cbn [vx vy vz] in X, Y, Z. vec; lra.
  - intros a b (a' & Sa & Da) (b' & Tb & Db). specialize (G _ _ Sa Tb).
    pose proof (dot_le_len a' a n Hn) as A1. pose proof (dot_le_len b b' n Hn) as B1.
    assert (GeoModel.dist a' a = GeoModel.dist a a') as DD.
    { unfold GeoModel.dist, len. f_equal. unfold lsq, dot3, sub3; cbn [vx vy vz]. ring. }
    rewrite !dot_sub_l in *. lra.
Qed.
Lemma gdist_triangle x y z : GeoModel.dist x z <= GeoModel.dist x y + GeoModel.dist y z.
Proof.
  destruct (Req_dec (lsq (sub3 x z)) 0) as [E|E].
  - assert (GeoModel.dist x z = 0) as ->. { unfold GeoModel.dist, len. rewrite E. apply sqrt_0. }
    pose proof (len_nonneg (sub3 x y)). pose proof (len_nonneg (sub3 y z)). unfold GeoModel.dist. lra.
  - pose proof (lsq_nonneg (sub3 x z)). assert (P : 0 < lsq (sub3 x z)) by lra. pose proof (len_pos _ P) as L.
    set (n := div3 (sub3 x z) (len (sub3 x z))). assert (Hn : unit3 n) by (apply unit_div; done).
    assert (dot3 (sub3 x z) n = GeoModel.dist x z) as D.
    { unfold n. rewrite div_scl, dot_scl_r. fold (lsq (sub3 x z)). rewrite <- len_sq. unfold GeoModel.dist. field. lra. }
    pose proof (dot_le_len x y n Hn). pose proof (dot_le_len y z n Hn). rewrite dot_sub_l in D. lra.
Qed.
Lemma gdist_sym x y : GeoModel.dist x y = GeoModel.dist y x.
Proof. unfold GeoModel.dist, len. f_equal. unfold lsq, dot3, sub3; cbn [vx vy vz]. ring. Qed.
Lemma rounded_apart (S T : v3 → Prop) x y ra rb t : 0 <= ra + rb + t →
  nearest_pair S T x y → (ra + rb + t) * (ra + rb + t) < lsq (sub3 x y) → apart (rounded S ra) (rounded T rb) t.
Proof.
  intros P (_ & _ & N) D a b (a' & Sa & Da) (b' & Tb & Db). specialize (N _ _ Sa Tb).
  assert (ra + rb + t < GeoModel.dist x y).
  { rewrite <- len_sq in D. unfold GeoModel.dist. pose proof (len_nonneg (sub3 x y)). nra. }
  pose proof (gdist_triangle a' a b'). pose proof (gdist_triangle a b b'). pose proof (gdist_sym a' a). lra.
Qed.
Lemma point_convex p : convex (eq p).
Proof. intros x y t <- <- _. vec; ring. Qed.
Lemma segment_convex a b : convex (on_segment a b).
Proof.
  intros x y t (s & Hs & ->) (u & Hu & ->) Ht. exists (s + t * (u - s)). split; [split; nra|]. vec; ring.
Qed.
Lemma ball_rounded c r x : ball c r x ↔ rounded (eq c) r x.
Proof. split; [intros H; exists c; done|intros (y & <- & H); done]. Qed.

(** ** Sphere and sphere *)
Lemma world_rot v pos orn : qlsq orn = 1 → to_world (rotate (qconj orn) v) pos orn = add3 pos v.
Proof. intros H. unfold to_world. rewrite conj_inv' by done. done. Qed.
Lemma sphere_sphere_ok ra rb c : turned c → 0 <= ra → 0 <= rb → 0 <= c_thr c →
  c_posA c = c_posB c ∨ eps < GeoModel.dist (c_posA c) (c_posB c) →
  contacts (ball (c_posA c) ra) (ball (c_posB c) rb) c (sphere_sphere ra rb c).
Proof.
  intros [TA TB] Ra Rb Ht C. unfold sphere_sphere, contacts. pose proof eps_pos.
  set (x := c_posA c) in *. set (y := c_posB c) in *.
  assert (NP : nearest_pair (eq x) (eq y) x y). { split_and!; try done. intros ? ? <- <-. lra. }
  assert (AP : ∀ t, apart (rounded (eq x) ra) (rounded (eq y) rb) t → apart (ball x ra) (ball y rb) t).
  { intros t Q a b Ha Hb. apply Q; apply ball_rounded; done. }
  destruct (rltb _ (lsq (sub3 x y))) eqn:E.
  - apply rltb_true in E. split; [|intros p Hp; inversion Hp]. intros _. apply AP. apply (rounded_apart _ _ x y); [lra|done|done].
  - apply rltb_false in E. split; [done|]. intros p Hp. apply elem_of_list_singleton in Hp. subst p.
    change (sqrt (lsq (sub3 x y))) with (len (sub3 x y)). fold (GeoModel.dist x y).
    assert (D : GeoModel.dist x y <= ra + rb + c_thr c).
    { unfold GeoModel.dist. pose proof (len_sq (sub3 x y)). pose proof (len_nonneg (sub3 x y)). nra. }
    split; [|simpl; lra].
    apply (contact_ext (rounded (eq x) ra) _ (rounded (eq y) rb)); [intros ?; symmetry; apply ball_rounded..|].
    unfold world_a, world_b. cbn [p_a p_b p_normal p_dist]. rewrite !world_rot by done. fold x y.
    set (dn := if rltb eps (GeoModel.dist x y) then _ else _).
    assert (CC : contact (eq x) (eq y) x y dn (GeoModel.dist x y)).
    { unfold dn. destruct (rltb eps (GeoModel.dist x y)) eqn:F.
      - apply rltb_true in F. unfold GeoModel.dist. apply nearest_contact; auto using point_convex.
        pose proof (lsq_nonneg (sub3 x y)). rewrite <- len_sq. unfold GeoModel.dist in F. nra.
      - apply rltb_false in F. destruct C as [C|C]; [|lra].
        assert (GeoModel.dist x y = 0) as ->.
        { rewrite C. unfold GeoModel.dist, len. replace (lsq (sub3 y y)) with 0 by (unfold lsq, dot3, sub3; cbn [vx vy vz]; ring). apply sqrt_0. }
        split_and!; try done. { apply unit_ex. } { rewrite C. vec; ring. }
        intros a b <- <-. rewrite C. unfold dot3, sub3; cbn [vx vy vz]. lra. }
    pose proof (rounded_contact _ _ _ _ _ _ ra rb Ra Rb CC) as RC.
    replace (add3 x (scl ra (neg3 dn))) with (sub3 x (scl ra dn)) by (vec; ring). done.
Qed.

(** ** Capsule and sphere *)
Lemma world_object' x pos orn : qlsq orn = 1 → to_world (to_object x pos orn) pos orn = x.
Proof. intros H. unfold to_world, to_object. rewrite conj_inv' by done. vec; ring. Qed.
Lemma capsule_ends hl a pos orn : capsule_vertex hl a pos orn true = sub3 pos (scl hl (axis_vec_q a orn)) ∧
  capsule_vertex hl a pos orn false = add3 pos (scl hl (axis_vec_q a orn)).
Proof. done. Qed.
Lemma capsule_length hl a pos orn : qlsq orn = 1 →
  lsq (sub3 (capsule_vertex hl a pos orn true) (capsule_vertex hl a pos orn false)) = 4 * hl * hl.
Proof.
  intros H. unfold capsule_vertex. pose proof (axis_unit a orn H) as U.
  replace (lsq _) with (4 * hl * hl * lsq (axis_vec_q a orn)) by (unfold lsq, dot3, sub3, add3, scl; cbn [vx vy vz]; ring). rewrite (unit_lsq _ U). ring.
Qed.
Lemma axes_orth a b orn : qlsq orn = 1 → a ≠ b → dot3 (axis_vec_q a orn) (axis_vec_q b orn) = 0.
Proof.
  intros H N. unfold axis_vec_q. rewrite rotate_dot by done. destruct a, b; try done; unfold dot3, axis_vec, ex, ey, ez; simpl; ring.
Qed.

Lemma capsule_sphere_ok ra hl a rb c : turned c → 0 <= ra → 0 <= rb → 0 <= c_thr c → eps < 4 * hl * hl →
  (∀ q, nearest (on_segment (capsule_vertex hl a (c_posA c) (c_ornA c) false) (capsule_vertex hl a (c_posA c) (c_ornA c) true)) (c_posB c) q →
     (q = c_posB c ∧ a ≠ AZ) ∨ eps < lsq (sub3 q (c_posB c))) →
  ∃ l, capsule_sphere ra hl a rb c = Ok l ∧
    contacts (capsule_at ra hl a (c_posA c) (c_ornA c)) (ball (c_posB c) rb) c l.
Proof.
  intros [TA TB] Ra Rb Ht Hl C. unfold capsule_sphere, contacts, capsule_at. pose proof eps_pos.
  pose proof (capsule_length hl a (c_posA c) (c_ornA c) TA) as LL.
  set (v0 := capsule_vertex hl a (c_posA c) (c_ornA c) false) in *. set (v1 := capsule_vertex hl a (c_posA c) (c_ornA c) true) in *.
  set (y := c_posB c) in *.
  assert (∃ d t q, closest_point_segment v0 v1 y = Ok (d, t, q)) as (d & t & q & E).
  { unfold closest_point_segment, assert_. assert (rltb eps (dot3 (sub3 v1 v0) (sub3 v1 v0)) = true) as ->; [|simpl; eauto].
    apply rltb_true. fold (lsq (sub3 v1 v0)). lra. }
  rewrite E. cbn [mbind res_bind]. destruct (segment_ok _ _ _ _ _ _ E) as (_ & _ & Ed & N). specialize (C q N).
  assert (NP : nearest_pair (on_segment v0 v1) (eq y) q y).
  { destruct N as [N1 N2]. split_and!; try done. intros x' ? Hx' <-. rewrite !(gdist_sym _ y). apply N2. done. }
  assert (D : d = lsq (sub3 q y)) by (rewrite Ed; unfold lsq, dot3, sub3; cbn [vx vy vz]; ring). rewrite D.
  destruct (rltb _ (lsq (sub3 q y))) eqn:F.
  - apply rltb_true in F. eexists. split; [done|]. split; [|intros p Hp; inversion Hp]. intros _ x z Hx Hz.
    refine (rounded_apart (on_segment v0 v1) (eq y) q y ra rb _ _ NP F x z Hx (proj1 (ball_rounded _ _ _) Hz)). lra.
  - apply rltb_false in F.
    set (nd := if rltb eps (lsq (sub3 q y)) then _ else _). destruct nd as [n dd] eqn:End. eexists. split; [done|].
    split; [done|]. intros p Hp. apply elem_of_list_singleton in Hp. subst p.
    assert (CC : ∃ l0, dd = l0 - ra - rb ∧ l0 <= ra + rb + c_thr c ∧ contact (on_segment v0 v1) (eq y) q y n l0).
    { unfold nd in End. destruct (rltb eps (lsq (sub3 q y))) eqn:G.
      - apply rltb_true in G. injection End as <- <-. fold (len (sub3 q y)). exists (len (sub3 q y)). split; [done|].
        split. { pose proof (len_sq (sub3 q y)). pose proof (len_nonneg (sub3 q y)). nra. }
        apply nearest_contact; auto using point_convex, segment_convex. lra.
      - apply rltb_false in G. destruct C as [[-> Na]|C]; [|lra]. injection End as <- <-. exists 0. split; [lra|]. split; [lra|].
        pose proof NP as (Q1 & _). split_and!; try done; [apply axis_unit; done|vec; ring|].
        intros x z (s & Hs & ->) <-. destruct Q1 as (s' & Hs' & ->).
        replace (sub3 _ _) with (scl (2 * (s' - s) * hl) (axis_vec_q a (c_ornA c))).
        + rewrite dot_scl_l, (axes_orth a AZ) by done. lra.
        + unfold v0, v1, capsule_vertex. vec; ring. }
    destruct CC as (l0 & -> & L0 & CC). split; [|simpl; lra].
    apply (contact_ext (rounded (on_segment v0 v1) ra) _ (rounded (eq y) rb)); [done|intros ?; symmetry; apply ball_rounded|].
    unfold world_a, world_b. cbn [p_a p_b p_normal p_dist]. rewrite world_object' by done. fold y.
    replace (to_world (scl rb (rotate (qconj (c_ornB c)) n)) y (c_ornB c)) with (add3 y (scl rb n)).
    + apply rounded_contact; done.
    + rewrite <- rotate_scl, world_rot by done. done.
Qed.
Lemma capsule_sphere_short ra hl a rb c : qlsq (c_ornA c) = 1 → 4 * hl * hl <= eps → capsule_sphere ra hl a rb c = AssertFail.
Proof.
  intros TA Hl. unfold capsule_sphere, closest_point_segment, assert_. pose proof (capsule_length hl a (c_posA c) (c_ornA c) TA) as LL.
  unfold lsq in LL. rewrite LL. assert (rltb eps (4 * hl * hl) = false) as -> by (apply rltb_false; done). done.
Qed.

(** ** Two capsules *)
Lemma ss_written p1 q1 p2 q2 : let s := closest_point_segment_segment true p1 q1 p2 q2 in
  (eps < lsq (sub3 q1 p1) → eps < lsq (sub3 q2 p2) → is_Some (ss_num s)) ∧
  (lsq (sub3 q1 p1) <= eps ∨ lsq (sub3 q2 p2) <= eps → ss_num s = None ∧ ss_second s = None) ∧
  (eps < lsq (cross3 (sub3 q1 p1) (sub3 q2 p2)) → ss_second s = None).
Proof.
  cbv zeta. rewrite lagrange. unfold lsq, closest_point_segment_segment.
  set (a := dot3 (sub3 q1 p1) (sub3 q1 p1)). set (e := dot3 (sub3 q2 p2) (sub3 q2 p2)).
  set (b := dot3 (sub3 q1 p1) (sub3 q2 p2)). set (f := dot3 (sub3 q2 p2) (sub3 p1 p2)).
  set (cc := dot3 (sub3 q1 p1) (sub3 p1 p2)).
  destruct (rleb a eps) eqn:Ea; [apply rleb_true in Ea|apply Bool.not_true_iff_false in Ea; rewrite rleb_true in Ea];
  (destruct (rleb e eps) eqn:Ee; [apply rleb_true in Ee|apply Bool.not_true_iff_false in Ee; rewrite rleb_true in Ee]);
    cbn [andb ss_num ss_second].
  1-3: (split_and!; [intros; lra|done|done]).
  destruct (Rlt_dec eps (a * e - b * b)).
  - destruct (rltb _ 0); [|destruct (rltb e _)]; cbn [ss_num ss_second]; (split_and!; [eauto|intros [?|?]; lra|done]).
  - destruct (rltb eps (Rabs _));
    (destruct (rltb _ 0); [|destruct (rltb e _)]); cbn [ss_num ss_second]; (split_and!; [eauto|intros [?|?]; lra|intros; lra]).
Qed.

Lemma capsule_capsule_ok ra hla aa rb hlb ab c : turned c → 0 <= ra → 0 <= rb → 0 <= c_thr c →
  eps < 4 * hla * hla → eps < 4 * hlb * hlb →
  let va0 := capsule_vertex hla aa (c_posA c) (c_ornA c) false in
  let va1 := capsule_vertex hla aa (c_posA c) (c_ornA c) true in
  let vb0 := capsule_vertex hlb ab (c_posB c) (c_ornB c) false in
  let vb1 := capsule_vertex hlb ab (c_posB c) (c_ornB c) true in
  seg_clear va0 va1 vb0 vb1 → crossing_ok va0 va1 vb0 vb1 →
  ∃ l, capsule_capsule ra hla aa rb hlb ab c = Ok l ∧
    (l = [] → apart (capsule_at ra hla aa (c_posA c) (c_ornA c)) (capsule_at rb hlb ab (c_posB c) (c_ornB c)) (c_thr c)) ∧
    (∀ i p, l !! i = Some p → p_dist p <= c_thr c ∧
       (i = 0%nat ∨ ¬ late_overlap va0 va1 vb0 vb1 →
        contact_point (capsule_at ra hla aa (c_posA c) (c_ornA c)) (capsule_at rb hlb ab (c_posB c) (c_ornB c)) c p)).
Proof.
  intros [TA TB] Ra Rb Ht HA HB. cbv zeta. intros SC CO. unfold capsule_capsule, capsule_at. pose proof eps_pos.
  pose proof (capsule_length hla aa (c_posA c) (c_ornA c) TA) as LA. pose proof (capsule_length hlb ab (c_posB c) (c_ornB c) TB) as LB.
  set (va0 := capsule_vertex hla aa (c_posA c) (c_ornA c) false) in *. set (va1 := capsule_vertex hla aa (c_posA c) (c_ornA c) true) in *.
  set (vb0 := capsule_vertex hlb ab (c_posB c) (c_ornB c) false) in *. set (vb1 := capsule_vertex hlb ab (c_posB c) (c_ornB c) true) in *.
  destruct (seg_clear_ok true va0 va1 vb0 vb1 SC) as (_ & _ & _ & _ & Ed & NP).
  destruct (ss_written va0 va1 vb0 vb1) as (W1 & _ & W3).
  pose proof (λ sp tp c1 c2, second_ok va0 va1 vb0 vb1 sp tp c1 c2) as SO.
  set (s := closest_point_segment_segment true va0 va1 vb0 vb1) in *.
  set (x := ss_c1 s) in *. set (y := ss_c2 s) in *. rewrite Ed. specialize (CO _ _ NP).
  destruct (rltb _ (lsq (sub3 x y))) eqn:F.
  { apply rltb_true in F. eexists. split; [done|]. split; [|intros i p Hp; done]. intros _ u w Hu Hw.
    refine (rounded_apart _ _ x y ra rb _ _ NP F u w Hu Hw). lra. }
  apply rltb_false in F. destruct W1 as [k Wk]; [lra..|]. rewrite Wk. cbn [opt_res mbind res_bind].
  set (nd := if rltb eps (lsq (sub3 x y)) then _ else _). destruct nd as [n dd] eqn:End.
  assert (CC : ∃ l0, dd = l0 - ra - rb ∧ l0 <= ra + rb + c_thr c ∧ l0 = len (sub3 x y) ∧ contact (on_segment va0 va1) (on_segment vb0 vb1) x y n l0).
  { unfold nd in End. destruct (rltb eps (lsq (sub3 x y))) eqn:G.
    - apply rltb_true in G. injection End as <- <-. fold (len (sub3 x y)). exists (len (sub3 x y)). split; [done|].
      split. { pose proof (len_sq (sub3 x y)). pose proof (len_nonneg (sub3 x y)). nra. }
      split; [done|]. apply nearest_contact; auto using segment_convex. lra.
    - apply rltb_false in G. destruct CO as [[Exy X]|C]; [|lra]. exists 0.
      set (w := cross3 (sub3 va1 va0) (sub3 vb1 vb0)) in *.
      set (w' := if rltb (dot3 (sub3 (c_posA c) (c_posB c)) w) 0 then scl (-1) w else w) in *.
      assert (W' : ∃ k, (k = 1 ∨ k = -1) ∧ w' = scl k w).
      { unfold w'. destruct (rltb _ 0); [exists (-1); auto|exists 1; split; [auto|vec; ring]]. }
      destruct W' as (k' & Hk & Ew). clearbody w'.
      assert (Lw : eps < lsq w').
      { rewrite Ew. replace (lsq (scl k' w)) with (k' * k' * lsq w) by (unfold lsq, dot3, scl; cbn [vx vy vz]; ring). destruct Hk as [-> | ->]; lra. }
      assert (T : try_normalize w' = Some (div3 w' (len w'))).
      { unfold try_normalize. assert (tiny < eps) by (unfold tiny, eps; lra). destruct Rlt_dec; [|lra]. f_equal. unfold len. vec; unfold Rdiv; ring. }
      rewrite T in End. simpl in End. injection End as <- <-. split; [lra|]. split; [lra|].
      split. { rewrite Exy. unfold len. replace (lsq (sub3 y y)) with 0 by (unfold lsq, dot3, sub3; cbn [vx vy vz]; ring). rewrite sqrt_0. done. }
      pose proof NP as (Q1 & Q2 & _). split_and!; try done; [apply unit_div; lra|rewrite Exy; vec; ring|].
      intros u v (su & _ & ->) (sv & _ & ->). destruct Q1 as (sx & _ & Ex). destruct Q2 as (sy & _ & Ey).
      right. symmetry. rewrite div_scl, Ew, !dot_scl_r.
      replace (dot3 _ w) with 0; [ring|].
      rewrite Ex, Ey in Exy. 
      replace (sub3 (add3 va0 (scl su (sub3 va1 va0))) (add3 vb0 (scl sv (sub3 vb1 vb0))))
        with (sub3 (scl (su - sx) (sub3 va1 va0)) (scl (sv - sy) (sub3 vb1 vb0))).
      2: { apply (f_equal vx) in Exy as X1; apply (f_equal vy) in Exy as X2; apply (f_equal vz) in Exy as X3.
           unfold add3, scl, sub3 in X1, X2, X3; cbn [vx vy vz] in X1, X2, X3. vec; lra. }
      unfold w, cross3, dot3, sub3, scl; cbn [vx vy vz]. ring. }
  destruct CC as (l0 & -> & L0 & El & CC).
  eexists. split; [done|]. split; [done|].
  assert (PT : ∀ ca cb, nearest_pair (on_segment va0 va1) (on_segment vb0 vb1) ca cb →
    contact_point (capsule va0 va1 ra) (capsule vb0 vb1 rb) c
      (CP (to_object (sub3 ca (scl ra n)) (c_posA c) (c_ornA c)) (to_object (add3 cb (scl rb n)) (c_posB c) (c_ornB c)) n (l0 - ra - rb) ANone)).
  { intros ca cb N. unfold contact_point, world_a, world_b. cbn [p_a p_b p_normal p_dist]. rewrite !world_object' by done.
    apply (rounded_contact (on_segment va0 va1) (on_segment vb0 vb1)); [done..|].
    pose proof (nearest_same _ _ _ _ _ _ (segment_convex va0 va1) (segment_convex vb0 vb1) NP N) as ES.
    destruct CC as (_ & _ & C3 & C4 & C5). pose proof N as (N1 & N2 & _). split_and!; try done. rewrite ES. done. }
  intros i p Hp. destruct i as [|i]; simpl in Hp.
  - injection Hp as <-. split; [simpl; lra|]. intros _. apply PT. done.
  - destruct (ss_second s) as [[[[sp tp] c1] c2]|] eqn:Es; [|done]. destruct i; [|done]. simpl in Hp. injection Hp as <-.
    split; [simpl; lra|]. intros [?|NL]; [done|]. apply PT.
    assert (Z : lsq (cross3 (sub3 va1 va0) (sub3 vb1 vb0)) = 0).
    { destruct SC as (_ & _ & [Z|Z]); [done|]. specialize (W3 Z). congruence. }
    destruct (SO sp tp c1 c2) as (_ & _ & _ & _ & SN); [lra|lra|done|done|]. apply SN. done.
Qed.
Lemma capsule_capsule_short ra hla aa rb hlb ab c : turned c → 4 * hla * hla <= eps ∨ 4 * hlb * hlb <= eps →
  capsule_capsule ra hla aa rb hlb ab c = Ok [] ∨ capsule_capsule ra hla aa rb hlb ab c = UB.
Proof.
  intros [TA TB] Hl. unfold capsule_capsule.
  pose proof (capsule_length hla aa (c_posA c) (c_ornA c) TA) as LA. pose proof (capsule_length hlb ab (c_posB c) (c_ornB c) TB) as LB.
  set (va0 := capsule_vertex hla aa (c_posA c) (c_ornA c) false) in *. set (va1 := capsule_vertex hla aa (c_posA c) (c_ornA c) true) in *.
  set (vb0 := capsule_vertex hlb ab (c_posB c) (c_ornB c) false) in *. set (vb1 := capsule_vertex hlb ab (c_posB c) (c_ornB c) true) in *.
  destruct (ss_written va0 va1 vb0 vb1) as (_ & W2 & _). rewrite <- LA, <- LB in Hl. destruct (W2 Hl) as [W _].
  set (s := closest_point_segment_segment true va0 va1 vb0 vb1) in *.
  destruct (rltb _ (ss_dist s)); [left; done|right]. rewrite W. destruct (rltb eps (ss_dist s)); done.
Qed.
