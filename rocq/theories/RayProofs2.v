(** Proofs about RayModel.v: boxes and polyhedra. *)
From Verif Require Import Outcome BoxModel GeoModel RotSpec RotProofs NearModel NearSpec NearProofs RayModel RaySpec RayProofs.
From Coq Require Import Reals Lra Psatz.
Local Open Scope R_scope.

(** ** Object space *)
Lemma object_world x pos orn : qlsq orn = 1 → to_object (to_world x pos orn) pos orn = x.
Proof.
  intros H. unfold to_object, to_world.
  assert (sub3 (add3 pos (rotate orn x)) pos = rotate orn x) as ->.
  { destruct pos, (rotate orn x). unfold sub3, add3; simpl. f_equal; ring. }
  apply conj_inv. done.
Qed.
Lemma world_object x pos orn : qlsq orn = 1 → to_world (to_object x pos orn) pos orn = x.
Proof.
  intros H. unfold to_object, to_world. rewrite conj_inv' by done.
  destruct pos, x. unfold sub3, add3; simpl. f_equal; ring.
Qed.
Lemma placed_iff pos orn S x : qlsq orn = 1 → placed pos orn S x ↔ S (to_object x pos orn).
Proof.
  intros H. split.
  - intros (y & Hy & ->). rewrite object_world by done. done.
  - intros Hs. exists (to_object x pos orn). rewrite world_object by done. done.
Qed.
Lemma object_along pos orn p0 p1 t :
  to_object (along p0 p1 t) pos orn = along (to_object p0 pos orn) (to_object p1 pos orn) t.
Proof.
  unfold to_object, along. rewrite <- rotate_sub, <- rotate_scl, <- rotate_add. f_equal.
  destruct p0, p1, pos. unfold add3, scl, sub3; simpl. f_equal; ring.
Qed.
Lemma object_sub pos orn p0 p1 : sub3 (to_object p1 pos orn) (to_object p0 pos orn) = rotate (qconj orn) (sub3 p1 p0).
Proof.
  unfold to_object. rewrite <- rotate_sub. f_equal. destruct p0, p1, pos. unfold sub3; simpl. f_equal; ring.
Qed.
Lemma placed_along pos orn S p0 p1 t :
  qlsq orn = 1 → placed pos orn S (along p0 p1 t) ↔ S (along (to_object p0 pos orn) (to_object p1 pos orn) t).
Proof. intros H. rewrite placed_iff, object_along by done. done. Qed.
Lemma outward_placed pos orn (S : v3 → Prop) x n :
  qlsq orn = 1 → outward S (to_object x pos orn) n → outward (placed pos orn S) x (rotate orn n).
Proof.
  intros H [Hn Ho]. split.
  - unfold unit3. rewrite rotate_dot by done. done.
  - intros y Hy. apply placed_iff in Hy; [|done]. specialize (Ho _ Hy). rewrite object_sub in Ho.
    assert (dot3 (rotate (qconj orn) (sub3 y x)) n = dot3 (sub3 y x) (rotate orn n)) as <-; [|done].
    rewrite <- (rotate_dot orn) by done. rewrite conj_inv' by done. done.
Qed.
Lemma object_coord orn w a : qlsq orn = 1 → dot3 (rotate (qconj orn) w) (axis_vec a) = dot3 w (axis_vec_q a orn).
Proof.
  intros H. unfold axis_vec_q. rewrite <- (rotate_dot orn (rotate (qconj orn) w)) by done. rewrite conj_inv' by done. done.
Qed.
Lemma coord_dot v : vx v = dot3 v (axis_vec AX) ∧ vy v = dot3 v (axis_vec AY) ∧ vz v = dot3 v (axis_vec AZ).
Proof. destruct v. unfold dot3, axis_vec, ex, ey, ez; simpl. split_and!; ring. Qed.

Lemma scalar_max_big : 10 ^ 30 < scalar_max.
Proof. unfold scalar_max. simpl. lra. Qed.

(** ** Intervals of the line *)
Definition ivl (P : R → Prop) (lo hi : R) : Prop :=
  lo <= hi ∧ ∀ t, (- scalar_max <= t <= scalar_max ∧ P t) ↔ lo <= t <= hi.
Lemma ivl_init : ivl (λ _, True) (- scalar_max) scalar_max.
Proof. pose proof scalar_max_big. split; [simpl in *; lra|]. intros; tauto. Qed.

(** a lower bound, an upper bound *)
Lemma ivl_cut P lo hi a b (Q : R → Prop) :
  ivl P lo hi → (∀ t, Q t ↔ a <= t <= b) →
  (Rmax lo a <= Rmin hi b → ivl (λ t, P t ∧ Q t) (Rmax lo a) (Rmin hi b)) ∧
  (Rmin hi b < Rmax lo a → ∀ t, - scalar_max <= t <= scalar_max → P t → ¬ Q t).
Proof.
  intros [Hle H] HQ. split.
  - intros Hc. split; [done|]. intros t. specialize (H t). rewrite HQ.
    pose proof (Rmax_l lo a). pose proof (Rmax_r lo a). pose proof (Rmin_l hi b). pose proof (Rmin_r hi b). split.
    + intros (Hm & Hp & Ha). destruct H as [H _]. specialize (H (conj Hm Hp)).
      split; [apply Rmax_lub|apply Rmin_glb]; lra.
    + intros Ht. destruct H as [_ H]. specialize (H ltac:(lra)). split; [tauto|]. split; [tauto|]. lra.
  - intros Hc t Hm Hp Hq. apply HQ in Hq. destruct H with t as [H1 _]. specialize (H1 (conj Hm Hp)).
    assert (Rmax lo a <= t) by (apply Rmax_lub; lra). assert (t <= Rmin hi b) by (apply Rmin_glb; lra). lra.
Qed.
Lemma ivl_ext P Q lo hi : (∀ t, P t ↔ Q t) → ivl P lo hi → ivl Q lo hi.
Proof. intros He [H1 H2]. split; [done|]. intros t. rewrite <- He. apply H2. Qed.

(** ** Boxes *)
Definition slab (p d h t : R) : Prop := - h <= p + t * d <= h.
Lemma box_axis_ok i p d h lo hi face P :
  d = 0 ∨ eps <= Rabs d → 0 < h → ivl P lo hi →
  match box_axis i p d h (lo, hi, face) with
  | None => ∀ t, - scalar_max <= t <= scalar_max → P t → ¬ slab p d h t
  | Some (lo', hi', face') =>
      ivl (λ t, P t ∧ slab p d h t) lo' hi' ∧
      ((lo' = lo ∧ face' = face) ∨
       lo < lo' ∧ face' = Some (i * 2 + (if rltb 0 p then 0 else 1))%nat ∧ d ≠ 0 ∧ p + lo' * d = (if rltb 0 d then - h else h)) ∧
      (d ≠ 0 → ∃ t, t <= lo' ∧ p + t * d = (if rltb 0 d then - h else h))
  end.
Proof.
  intros Hd Hh Hi. unfold box_axis. pose proof eps_pos as Heps. destruct Hd as [->|Hd].
  - rewrite Rabs_R0. assert (rltb 0 eps = true) as -> by (apply rltb_true; lra).
    destruct (rltb h (Rabs p)) eqn:E.
    + apply rltb_true in E. intros t _ _ Hs. unfold slab in Hs. unfold Rabs in E. destruct Rcase_abs; lra.
    + apply rltb_false in E. split; [|split; [left; done|intros; done]].
      eapply ivl_ext; [|exact Hi]. intros t. unfold slab. unfold Rabs in E. destruct Rcase_abs; split; try tauto; intros; split; auto; lra.
  - assert (rltb (Rabs d) eps = false) as -> by (unfold rltb; destruct Rlt_dec; [lra|done]).
    assert (Hd0 : d ≠ 0). { intros ->. rewrite Rabs_R0 in Hd. lra. }
    set (u := (- h - p) * (1 / d)). set (w := (h - p) * (1 / d)).
    assert (Eu : p + u * d = - h) by (unfold u; field; done). assert (Ew : p + w * d = h) by (unfold w; field; done).
    assert (Hord : rltb w u = rltb d 0 ∧ u ≠ w).
    { split.
      - destruct (Rtotal_order d 0) as [Hn|[Hz|Hp]]; [|done|].
        + assert (w < u) by nra. unfold rltb. repeat destruct Rlt_dec; try done; lra.
        + assert (u < w) by nra. unfold rltb. repeat destruct Rlt_dec; try done; lra.
      - intros E. rewrite E in Eu. lra. }
    destruct Hord as [Ho Hne]. rewrite Ho.
    set (a := if rltb 0 d then u else w). set (b := if rltb 0 d then w else u).
    assert (Hsw : (if rltb d 0 then (w, u) else (u, w)) = (a, b)).
    { unfold a, b, rltb. destruct (Rlt_dec d 0), (Rlt_dec 0 d); try done; lra. }
    rewrite Hsw.
    assert (Ea : p + a * d = if rltb 0 d then - h else h) by (unfold a; destruct (rltb 0 d); done).
    assert (HQ : ∀ t, slab p d h t ↔ a <= t <= b).
    { intros t. unfold slab, a, b, rltb. destruct (Rlt_dec 0 d) as [Hp|Hp].
      - split; intros [H1 H2]; split; nra.
      - assert (d < 0) by lra. split; intros [H1 H2]; split; nra. }
    destruct (ivl_cut P lo hi a b _ Hi HQ) as [C1 C2].
    destruct (rltb (Rmin hi b) (Rmax lo a)) eqn:E.
    + apply rltb_true in E. auto.
    + apply rltb_false in E. split; [auto|]. split.
      * destruct (rltb lo a) eqn:E2.
        -- apply rltb_true in E2. rewrite Rmax_right by lra. right. auto.
        -- apply rltb_false in E2. rewrite Rmax_left by lra. left. auto.
      * intros _. exists a. split; [apply Rmax_r|done].
Qed.

Lemma coord_le_len v : Rabs (vx v) <= len v ∧ Rabs (vy v) <= len v ∧ Rabs (vz v) <= len v.
Proof.
  pose proof (len_sq v) as L. pose proof (len_nonneg v) as N. unfold lsq, dot3 in L.
  assert (∀ x, x * x <= len v * len v → Rabs x <= len v) as K.
  { intros x Hx. unfold Rabs. destruct Rcase_abs; nra. }
  split_and!; apply K; rewrite L; pose proof (Rle_0_sqr (vx v)); pose proof (Rle_0_sqr (vy v)); pose proof (Rle_0_sqr (vz v)); unfold Rsqr in *; lra.
Qed.
Lemma slab_bounded p d h t :
  eps <= Rabs d → Rabs p <= 10 ^ 20 → 0 < h <= 10 ^ 20 → - h <= p + t * d <= h → - scalar_max < t < scalar_max.
Proof.
  intros Hd Hp Hh Hs. pose proof scalar_max_big as Hm.
  assert (Rabs (t * d) <= 2 * 10 ^ 20).
  { unfold Rabs in *. repeat destruct Rcase_abs; lra. }
  rewrite Rabs_mult in H. assert (Rabs t * eps <= 2 * 10 ^ 20).
  { eapply Rle_trans; [|exact H]. apply Rmult_le_compat_l; [apply Rabs_pos|done]. }
  unfold eps in *. assert (Rabs t <= 2 * 10 ^ 20 * 8388608) by lra.
  assert (Rabs t < scalar_max) as K by (simpl in *; lra). clear -K. unfold Rabs in K. destruct Rcase_abs; lra.
Qed.

Lemma box_faces (h p0 d : v3) lo i :
  (i < 3)%nat → 0 <= lo →
  0 < vx h → 0 < vy h → 0 < vz h →
  ∀ p dd hh, (p, dd, hh) = match i with 0%nat => (vx p0, vx d, vx h) | 1%nat => (vy p0, vy d, vy h) | _ => (vz p0, vz d, vz h) end →
  dd ≠ 0 → p + lo * dd = (if rltb 0 dd then - hh else hh) →
  ∃ n, box_face_normal (i * 2 + (if rltb 0 p then 0 else 1)) = Ok n ∧ outward (in_box h) (add3 p0 (scl lo d)) n ∧ dot3 d n < 0.
Proof.
  intros Hi Hlo H1 H2 H3 p dd hh E Hd He.
  assert (Hh : 0 < hh) by (destruct i as [|[|]]; injection E as -> -> ->; done).
  assert (Hs : rltb 0 p = negb (rltb 0 dd)).
  { unfold rltb in *. destruct (Rlt_dec 0 dd).
    - destruct (Rlt_dec 0 p); [|done]. nra.
    - assert (dd < 0) by lra. destruct (Rlt_dec 0 p); [done|]. nra. }
  rewrite Hs. destruct (rltb 0 dd) eqn:Ed; simpl negb; cbv iota.
  - apply rltb_true in Ed. destruct i as [|[|[|]]]; [| | |lia]; injection E as -> -> ->; simpl; eexists; (split; [done|]);
      (split; [split; [unfold unit3, dot3; simpl; ring|]; intros y (Y1 & Y2 & Y3); unfold dot3, sub3, add3, scl; simpl; lra|]);
      unfold dot3; simpl; lra.
  - assert (dd < 0) by (apply rltb_false in Ed; lra).
    destruct i as [|[|[|]]]; [| | |lia]; injection E as -> -> ->; simpl; eexists; (split; [done|]);
      (split; [split; [unfold unit3, dot3; simpl; ring|]; intros y (Y1 & Y2 & Y3); unfold dot3, sub3, add3, scl; simpl; lra|]);
      unfold dot3; simpl; lra.
Qed.

Lemma box_axis_face i (h p0 d : v3) lo face lo' face' p dd hh :
  (i < 3)%nat → 0 < vx h → 0 < vy h → 0 < vz h →
  (p, dd, hh) = match i with 0%nat => (vx p0, vx d, vx h) | 1%nat => (vy p0, vy d, vy h) | _ => (vz p0, vz d, vz h) end →
  let F l (f : option nat) := match f with
             | None => l = - scalar_max
             | Some f => ∃ n, box_face_normal f = Ok n ∧ (0 <= l → outward (in_box h) (add3 p0 (scl l d)) n ∧ dot3 d n < 0)
             end in
  F lo face →
  (lo' = lo ∧ face' = face) ∨
  (lo < lo' ∧ face' = Some (i * 2 + (if rltb 0 p then 0 else 1))%nat ∧ dd ≠ 0 ∧ p + lo' * dd = (if rltb 0 dd then - hh else hh)) →
  F lo' face'.
Proof.
  intros Hi H1 H2 H3 E F HF [[-> ->]|(Hlt & -> & Hd & He)]; [done|]. unfold F.
  destruct (Rle_or_lt 0 lo') as [Hp|Hn].
  - destruct (box_faces h p0 d _ i Hi Hp H1 H2 H3 p dd hh E Hd He) as (n & En & Ho). eauto.
  - destruct i as [|[|[|]]]; [| | |lia]; destruct (rltb 0 p); simpl; eexists; (split; [done|]); intros; lra.
Qed.

Lemma box_obj h p0 d :
  0 < vx h <= 10 ^ 20 → 0 < vy h <= 10 ^ 20 → 0 < vz h <= 10 ^ 20 →
  Rabs (vx p0) <= 10 ^ 20 → Rabs (vy p0) <= 10 ^ 20 → Rabs (vz p0) <= 10 ^ 20 →
  vx d = 0 ∨ eps <= Rabs (vx d) → vy d = 0 ∨ eps <= Rabs (vy d) → vz d = 0 ∨ eps <= Rabs (vz d) →
  vx d ≠ 0 ∨ vy d ≠ 0 ∨ vz d ≠ 0 →
  match
    st ← box_axis 0 (vx p0) (vx d) (vx h) (- scalar_max, scalar_max, None);
    st ← box_axis 1 (vy p0) (vy d) (vy h) st;
    box_axis 2 (vz p0) (vz d) (vz h) st
  with
  | None => ∀ t, ¬ in_box h (add3 p0 (scl t d))
  | Some (lo, _, face) =>
      ∃ f n, face = Some f ∧ box_face_normal f = Ok n ∧
      in_box h (add3 p0 (scl lo d)) ∧ (∀ t, in_box h (add3 p0 (scl t d)) → lo <= t) ∧
      (0 <= lo → outward (in_box h) (add3 p0 (scl lo d)) n ∧ dot3 d n < 0)
  end.
Proof.
  intros H1 H2 H3 P1 P2 P3 D1 D2 D3 Hd.
  assert (Hin : ∀ t, in_box h (add3 p0 (scl t d)) ↔ slab (vx p0) (vx d) (vx h) t ∧ slab (vy p0) (vy d) (vy h) t ∧ slab (vz p0) (vz d) (vz h) t).
  { intros t. unfold in_box, slab, add3, scl; simpl. tauto. }
  assert (Hbd : ∀ t, in_box h (add3 p0 (scl t d)) → - scalar_max <= t <= scalar_max).
  { intros t Ht. apply Hin in Ht as (S1 & S2 & S3).
    destruct Hd as [Hd|[Hd|Hd]].
    - destruct D1 as [|D1]; [done|]. pose proof (slab_bounded _ _ _ _ D1 P1 H1 S1). lra.
    - destruct D2 as [|D2]; [done|]. pose proof (slab_bounded _ _ _ _ D2 P2 H2 S2). lra.
    - destruct D3 as [|D3]; [done|]. pose proof (slab_bounded _ _ _ _ D3 P3 H3 S3). lra. }
  set (F l (f : option nat) := match f with
             | None => l = - scalar_max
             | Some f => ∃ n, box_face_normal f = Ok n ∧ (0 <= l → outward (in_box h) (add3 p0 (scl l d)) n ∧ dot3 d n < 0)
             end).
  pose proof (box_axis_ok 0 (vx p0) (vx d) (vx h) (- scalar_max) scalar_max None _ D1 ltac:(lra) ivl_init) as A1.
  destruct (box_axis 0 _ _ _ _) as [[[lo1 hi1] f1]|] eqn:E1; cbn [mbind option_bind].
  2: { intros t Ht. pose proof (Hbd t Ht). apply Hin in Ht as (? & ? & ?). apply (A1 t); cbv beta; auto. }
  destruct A1 as (I1 & F1 & B1).
  pose proof (box_axis_face 0 h p0 d (- scalar_max) None lo1 f1 _ _ _ ltac:(lia) ltac:(lra) ltac:(lra) ltac:(lra) eq_refl eq_refl F1) as G1.
  pose proof (box_axis_ok 1 (vy p0) (vy d) (vy h) lo1 hi1 f1 _ D2 ltac:(lra) I1) as A2.
  destruct (box_axis 1 _ _ _ _) as [[[lo2 hi2] f2]|] eqn:E2; cbn [mbind option_bind].
  2: { intros t Ht. pose proof (Hbd t Ht). apply Hin in Ht as (? & ? & ?). apply (A2 t); cbv beta; auto. }
  destruct A2 as (I2 & F2 & B2).
  pose proof (box_axis_face 1 h p0 d lo1 f1 lo2 f2 _ _ _ ltac:(lia) ltac:(lra) ltac:(lra) ltac:(lra) eq_refl G1 F2) as G2.
  pose proof (box_axis_ok 2 (vz p0) (vz d) (vz h) lo2 hi2 f2 _ D3 ltac:(lra) I2) as A3.
  destruct (box_axis 2 _ _ _ _) as [[[lo3 hi3] f3]|] eqn:E3; cbn [mbind option_bind].
  2: { intros t Ht. pose proof (Hbd t Ht). apply Hin in Ht as (? & ? & ?). apply (A3 t); cbv beta; auto. }
  destruct A3 as (I3 & F3 & B3).
  pose proof (box_axis_face 2 h p0 d lo2 f2 lo3 f3 _ _ _ ltac:(lia) ltac:(lra) ltac:(lra) ltac:(lra) eq_refl G2 F3) as G3.
  simpl in G3.
  assert (L2 : lo1 <= lo2) by (destruct F2 as [[-> _]|[? _]]; lra).
  assert (L3 : lo2 <= lo3) by (destruct F3 as [[-> _]|[? _]]; lra).
  destruct f3 as [f|].
  - destruct G3 as (n & En & Hn). exists f, n. split; [done|]. split; [done|]. destruct I3 as [Hle I3].
    split; [apply Hin; destruct (I3 lo3) as [_ K]; specialize (K ltac:(lra)); cbv beta in K; destruct_and!; split_and!; assumption|]. split; [|done].
    intros t Ht. pose proof (Hbd t Ht). apply Hin in Ht as (? & ? & ?). destruct (I3 t) as [K _]. apply K. cbv beta. auto 10.
  - exfalso. destruct Hd as [Hd|[Hd|Hd]].
    + destruct D1 as [|D1]; [done|]. destruct (B1 Hd) as (t & Ht & Et).
      assert (- scalar_max < t); [|simpl in G3; lra].
      apply (slab_bounded (vx p0) (vx d) (vx h)); [assumption..|]. rewrite Et. clear -H1 H2 H3. destruct (rltb 0 _); lra.
    + destruct D2 as [|D2]; [done|]. destruct (B2 Hd) as (t & Ht & Et).
      assert (- scalar_max < t); [|simpl in G3; lra].
      apply (slab_bounded (vy p0) (vy d) (vy h)); [assumption..|]. rewrite Et. clear -H1 H2 H3. destruct (rltb 0 _); lra.
    + destruct D3 as [|D3]; [done|]. destruct (B3 Hd) as (t & Ht & Et).
      assert (- scalar_max < t); [|simpl in G3; lra].
      apply (slab_bounded (vz p0) (vz d) (vz h)); [assumption..|]. rewrite Et. clear -H1 H2 H3. destruct (rltb 0 _); lra.
Qed.

Lemma box_ok h c :
  qlsq (rc_orn c) = 1 → 0 < vx h <= 10 ^ 20 → 0 < vy h <= 10 ^ 20 → 0 < vz h <= 10 ^ 20 →
  GeoModel.dist (rc_p0 c) (rc_pos c) <= 10 ^ 20 → dirs_clear (rc_orn c) (rc_p0 c) (rc_p1 c) → rc_p0 c ≠ rc_p1 c →
  let S := placed (rc_pos c) (rc_orn c) (in_box h) in
  ∃ o, raycast_box h c = Ok o ∧
  match o with
  | None => ¬ meets_line S (rc_p0 c) (rc_p1 c)
  | Some r => line_entry S (rc_p0 c) (rc_p1 c) (h_frac r) ∧
      (0 <= h_frac r → outward S (along (rc_p0 c) (rc_p1 c) (h_frac r)) (h_normal r) ∧ dot3 (sub3 (rc_p1 c) (rc_p0 c)) (h_normal r) < 0)
  end.
Proof.
  intros Hq H1 H2 H3 Hp Hd Hne S. unfold raycast_box.
  set (p0 := to_object (rc_p0 c) (rc_pos c) (rc_orn c)). set (p1 := to_object (rc_p1 c) (rc_pos c) (rc_orn c)).
  assert (Ed : sub3 p1 p0 = rotate (qconj (rc_orn c)) (sub3 (rc_p1 c) (rc_p0 c))) by apply object_sub.
  assert (Hl : len p0 <= 10 ^ 20).
  { unfold p0, to_object, len, lsq. rewrite rotate_dot by (apply unit_conj; done). exact Hp. }
  destruct (coord_le_len p0) as (C1 & C2 & C3).
  destruct (coord_dot (sub3 p1 p0)) as (X1 & X2 & X3). rewrite Ed in X1, X2, X3.
  rewrite object_coord in X1, X2, X3 by done. rewrite <- Ed in X1, X2, X3.
  pose proof (Hd AX) as D1. pose proof (Hd AY) as D2. pose proof (Hd AZ) as D3. cbn zeta in D1, D2, D3.
  rewrite <- X1 in D1. rewrite <- X2 in D2. rewrite <- X3 in D3.
  assert (Hnz : vx (sub3 p1 p0) ≠ 0 ∨ vy (sub3 p1 p0) ≠ 0 ∨ vz (sub3 p1 p0) ≠ 0).
  { destruct (Req_dec (vx (sub3 p1 p0)) 0) as [Z1|]; [|tauto]. destruct (Req_dec (vy (sub3 p1 p0)) 0) as [Z2|]; [|tauto].
    destruct (Req_dec (vz (sub3 p1 p0)) 0) as [Z3|]; [|tauto]. exfalso.
    pose proof (dot_pos _ _ Hne) as P. rewrite <- (rotate_dot (qconj (rc_orn c))) in P by (apply unit_conj; done). rewrite <- Ed in P.
    unfold dot3 in P. rewrite Z1, Z2, Z3 in P. lra. }
  pose proof (box_obj h p0 (sub3 p1 p0) H1 H2 H3 ltac:(lra) ltac:(lra) ltac:(lra) D1 D2 D3 Hnz) as B.
  assert (HS : ∀ t, S (along (rc_p0 c) (rc_p1 c) t) ↔ in_box h (add3 p0 (scl t (sub3 p1 p0)))).
  { intros t. unfold S. rewrite placed_along by done. done. }
  cbn zeta. destruct (_ ← _; _) as [[[lo hi] face]|]; [|].
  - destruct B as (f & n & -> & En & Hin & Hmin & Ho). rewrite En. simpl. eexists. split; [done|]. cbn [h_frac h_normal].
    split.
    + split; [apply HS; done|]. intros t Ht. apply Hmin, HS. done.
    + intros Hlo. destruct (Ho Hlo) as [O1 O2]. split.
      * apply outward_placed; [done|]. rewrite object_along. done.
      * rewrite Ed in O2. rewrite <- (rotate_dot (rc_orn c)) in O2 by done. rewrite conj_inv' in O2 by done. done.
  - eexists. split; [done|]. intros (t & Ht). apply HS in Ht. apply (B t). done.
Qed.

(** ** Polyhedra *)
Lemma poly_faces_ok p0 d (faces0 : list (v3 * v3)) : ∀ (faces : list (v3 * v3)) (i : nat) (lo hi : R) (face : option nat) (P : R → Prop),
  (∀ k vn, faces !! k = Some vn → faces0 !! (i + k)%nat = Some vn) →
  Forall (λ vn, eps <= Rabs (dot3 (snd vn) d)) faces →
  ivl P lo hi →
  match face with
  | None => lo = - scalar_max
  | Some f => ∃ v n, faces0 !! f = Some (v, n) ∧ dot3 (sub3 (add3 p0 (scl lo d)) v) n = 0 ∧ dot3 d n < 0
  end →
  match poly_faces p0 d i faces (lo, hi, face) with
  | None => ∀ t, - scalar_max <= t <= scalar_max → P t → ¬ behind faces (add3 p0 (scl t d))
  | Some (lo', hi', face') =>
      ivl (λ t, P t ∧ behind faces (add3 p0 (scl t d))) lo' hi' ∧ lo <= lo' ∧
      (∀ v n, (v, n) ∈ faces → dot3 d n < 0 → dot3 (sub3 v p0) n / dot3 n d <= lo') ∧
      match face' with
      | None => lo' = - scalar_max
      | Some f => ∃ v n, faces0 !! f = Some (v, n) ∧ dot3 (sub3 (add3 p0 (scl lo' d)) v) n = 0 ∧ dot3 d n < 0
      end
  end.
Proof.
  induction faces as [|[v n] faces IH]; intros i lo hi face P Hf0 Hc Hi Hface.
  { cbn [poly_faces]. split; [|split; [lra|split; [intros v n Hin; inversion Hin|done]]].
    eapply ivl_ext; [|exact Hi]. intros t. unfold behind. split; [|tauto]. intros Hp. split; [done|].
    intros v n Hin. inversion Hin. }
  cbn [poly_faces]. inversion Hc as [|? ? Hc1 Hc2]; subst. simpl in Hc1.
  assert (Hf1 : ∀ k vn, faces !! k = Some vn → faces0 !! (S i + k)%nat = Some vn).
  { intros k vn Hk. specialize (Hf0 (S k) vn Hk). rewrite <- Hf0. f_equal. lia. }
  pose proof (Hf0 0%nat (v, n) eq_refl) as Hf2. rewrite Nat.add_0_r in Hf2.
  assert (rltb (Rabs (dot3 n d)) eps = false) as -> by (unfold rltb; destruct Rlt_dec; [lra|done]).
  pose proof eps_pos. set (den := dot3 n d) in *. assert (Hden : den ≠ 0). { intros E. rewrite E, Rabs_R0 in Hc1. lra. }
  assert (Edn : dot3 d n = den). { unfold den. destruct d, n. unfold dot3; simpl. ring. }
  set (di := dot3 (sub3 v p0) n). set (t := di / den). assert (Et : t * den = di) by (unfold t; field; done).
  assert (Eb : ∀ u, dot3 (sub3 (add3 p0 (scl u d)) v) n = u * den - di).
  { intros u. unfold den, di. destruct p0, d, v, n. unfold dot3, sub3, add3, scl; simpl. ring. }
  assert (Hbc : ∀ u, behind ((v, n) :: faces) (add3 p0 (scl u d)) ↔ u * den - di <= 0 ∧ behind faces (add3 p0 (scl u d))).
  { intros u. unfold behind. rewrite <- Eb. split.
    - intros Hb. split; [apply Hb; left|]. intros v' n' Hin. apply Hb. right. done.
    - intros [Ha Hb] v' n' Hin. inversion Hin; subst; auto. }
  destruct (rltb den 0) eqn:E1.
  - apply rltb_true in E1.
    set (Q u := u * den - di <= 0).
    assert (HQ : ∀ u, Q u ↔ t <= u) by (intros u; unfold Q; rewrite <- Et; split; intros; nra).
    assert (Hst : (if rltb lo t then (t, hi, Some i) else (lo, hi, face)) = (Rmax lo t, hi, if rltb lo t then Some i else face)).
    { unfold rltb. destruct Rlt_dec; [rewrite Rmax_right by lra|rewrite Rmax_left by lra]; done. }
    rewrite Hst. pose proof (Rmax_l lo t). pose proof (Rmax_r lo t).
    destruct (rltb hi (Rmax lo t)) eqn:E2.
    + apply rltb_true in E2. intros u Hu Hp Hb. apply Hbc in Hb as [Hb _]. apply HQ in Hb. destruct Hi as [Hle Hi].
      destruct (Hi u) as [K _]. specialize (K (conj Hu Hp)). assert (Rmax lo t <= u) by (apply Rmax_lub; lra). lra.
    + apply rltb_false in E2.
      assert (Hi' : ivl (λ u, P u ∧ Q u) (Rmax lo t) hi).
      { split; [lra|]. intros u. destruct Hi as [Hle Hi]. destruct (Hi u) as [K1 K2]. rewrite HQ. split.
        - intros (Hu & Hp & Hq). specialize (K1 (conj Hu Hp)). split; [apply Rmax_lub|]; lra.
        - intros Hu. specialize (K2 ltac:(lra)). split; [tauto|]. split; [tauto|]. lra. }
      specialize (IH (S i) _ _ (if rltb lo t then Some i else face) _ Hf1 Hc2 Hi').
      destruct (poly_faces _ _ _ _ _) as [[[lo' hi'] face']|].
      * destruct IH as (I1 & I2 & I3 & I4).
        { destruct (rltb lo t) eqn:E3.
          - apply rltb_true in E3. rewrite Rmax_right by lra. exists v, n. rewrite Eb, Edn, Et. split; [done|]. split; [ring|done].
          - apply rltb_false in E3. rewrite Rmax_left by lra. done. }
        split; [eapply ivl_ext; [|exact I1]; intros u; cbv beta; rewrite Hbc; unfold Q; tauto|].
        split; [lra|]. split; [|done]. intros v' n' Hin Hneg. inversion Hin; subst; [|auto]. fold di den. fold t. lra.
      * intros u Hu Hp Hb. apply Hbc in Hb as [Hb1 Hb2]. apply IH in Hb2; auto.
        { destruct (rltb lo t) eqn:E3.
          - apply rltb_true in E3. rewrite Rmax_right by lra. exists v, n. rewrite Eb, Edn, Et. split; [done|]. split; [ring|done].
          - apply rltb_false in E3. rewrite Rmax_left by lra. done. }
  - assert (0 < den) by (apply rltb_false in E1; lra).
    set (Q u := u * den - di <= 0).
    assert (HQ : ∀ u, Q u ↔ u <= t) by (intros u; unfold Q; rewrite <- Et; split; intros; nra).
    assert (Hst : (if rltb t hi then (lo, t, face) else (lo, hi, face)) = (lo, Rmin hi t, face)).
    { unfold rltb. destruct Rlt_dec; [rewrite Rmin_right by lra|rewrite Rmin_left by lra]; done. }
    rewrite Hst. pose proof (Rmin_l hi t). pose proof (Rmin_r hi t).
    destruct (rltb (Rmin hi t) lo) eqn:E2.
    + apply rltb_true in E2. intros u Hu Hp Hb. apply Hbc in Hb as [Hb _]. apply HQ in Hb. destruct Hi as [Hle Hi].
      destruct (Hi u) as [K _]. specialize (K (conj Hu Hp)). assert (u <= Rmin hi t) by (apply Rmin_glb; lra). lra.
    + apply rltb_false in E2.
      assert (Hi' : ivl (λ u, P u ∧ Q u) lo (Rmin hi t)).
      { split; [lra|]. intros u. destruct Hi as [Hle Hi]. destruct (Hi u) as [K1 K2]. rewrite HQ. split.
        - intros (Hu & Hp & Hq). specialize (K1 (conj Hu Hp)). split; [|apply Rmin_glb]; lra.
        - intros Hu. specialize (K2 ltac:(lra)). split; [tauto|]. split; [tauto|]. lra. }
      specialize (IH (S i) _ _ face _ Hf1 Hc2 Hi' Hface).
      destruct (poly_faces _ _ _ _ _) as [[[lo' hi'] face']|].
      * destruct IH as (I1 & I2 & I3 & I4).
        split; [eapply ivl_ext; [|exact I1]; intros u; cbv beta; rewrite Hbc; unfold Q; tauto|].
        split; [lra|]. split; [|done]. intros v' n' Hin Hneg. inversion Hin; subst; [|auto]. lra.
      * intros u Hu Hp Hb. apply Hbc in Hb as [Hb1 Hb2]. apply IH in Hb2; auto.
Qed.

(** the direction of the ray in the space of the polyhedron *)
Lemma poly_ok faces c o :
  qlsq (rc_orn c) = 1 →
  (∀ v n, (v, n) ∈ faces → unit3 n ∧ eps <= Rabs (dot3 (sub3 (rc_p1 c) (rc_p0 c)) (rotate (rc_orn c) n))) →
  raycast_polyhedron faces c = Ok o →
  let S := placed (rc_pos c) (rc_orn c) (behind faces) in
  match o with
  | None => ¬ meets_segment S (rc_p0 c) (rc_p1 c)
  | Some r => segment_entry S (rc_p0 c) (rc_p1 c) (h_frac r) ∧ dot3 (sub3 (rc_p1 c) (rc_p0 c)) (h_normal r) < 0 ∧
      (¬ S (rc_p0 c) → outward S (along (rc_p0 c) (rc_p1 c) (h_frac r)) (h_normal r))
  end.
Proof.
  intros Hq Hfs. unfold raycast_polyhedron.
  set (p0 := to_object (rc_p0 c) (rc_pos c) (rc_orn c)). set (p1 := to_object (rc_p1 c) (rc_pos c) (rc_orn c)).
  assert (Ed : sub3 p1 p0 = rotate (qconj (rc_orn c)) (sub3 (rc_p1 c) (rc_p0 c))) by apply object_sub.
  assert (Edd : ∀ n, dot3 (sub3 p1 p0) n = dot3 (sub3 (rc_p1 c) (rc_p0 c)) (rotate (rc_orn c) n)).
  { intros n. rewrite Ed. rewrite <- (rotate_dot (rc_orn c)) by done. rewrite conj_inv' by done. done. }
  assert (Hcomm : ∀ a b, dot3 a b = dot3 b a) by (intros a b; destruct a, b; unfold dot3; simpl; ring).
  assert (Hcl : Forall (λ vn, eps <= Rabs (dot3 (snd vn) (sub3 p1 p0))) faces).
  { apply Forall_forall. intros [v n] Hin. simpl. rewrite Hcomm, Edd. apply (Hfs v n Hin). }
  pose proof (poly_faces_ok p0 (sub3 p1 p0) faces faces 0 (- scalar_max) scalar_max None _ ltac:(auto) Hcl ivl_init eq_refl) as B.
  intros Heq. set (S := placed (rc_pos c) (rc_orn c) (behind faces)).
  assert (HS : ∀ t, S (along (rc_p0 c) (rc_p1 c) t) ↔ behind faces (add3 p0 (scl t (sub3 p1 p0)))).
  { intros t. unfold S. rewrite placed_along by done. done. }
  assert (HS0 : S (rc_p0 c) ↔ behind faces (add3 p0 (scl 0 (sub3 p1 p0)))).
  { rewrite <- HS, along_0. done. }
  pose proof scalar_max_big as Hbig. assert (HM : 1 < scalar_max) by (simpl in Hbig; lra). clear Hbig.
  destruct (poly_faces _ _ _ _ _) as [[[lo hi] face]|].
  2: { injection Heq as <-. intros (t & Ht & Hin). apply HS in Hin. apply (B t); [lra|done|done]. }
  destruct B as ([Hle Hiv] & _ & _ & Hface).
  destruct ((rltb lo 0 && rltb hi 0) || (rltb 1 lo && rltb 1 hi)) eqn:E.
  { injection Heq as <-. intros (t & Ht & Hin). apply HS in Hin. destruct (Hiv t) as [K _].
    specialize (K ltac:(split; [lra|split; [done|done]])).
    apply orb_true_iff in E as [E|E]; apply andb_prop in E as [E1 E2]; apply rltb_true in E1, E2; lra. }
  destruct face as [f|]; [|discriminate]. destruct Hface as (v & n & Ef & Hv & Hn). rewrite Ef in Heq. simpl in Heq. injection Heq as <-.
  cbn [h_frac h_normal].
  assert (lo <= 1 ∧ 0 <= hi) as [Hlo Hhi].
  { apply orb_false_iff in E as [E1 E2]. apply andb_false_iff in E1, E2. split.
    - destruct E2 as [E2|E2]; apply rltb_false in E2; lra.
    - destruct E1 as [E1|E1]; apply rltb_false in E1; lra. }
  assert (Hc : clamp_unit lo = Rmax 0 lo).
  { unfold clamp_unit. destruct (Rlt_dec lo 0); [rewrite Rmax_left by lra; done|].
    destruct (Rlt_dec 1 lo); [lra|]. rewrite Rmax_right by lra. done. }
  rewrite Hc. pose proof (Rmax_l 0 lo). pose proof (Rmax_r 0 lo).
  assert (Hm : Rmax 0 lo <= 1) by (apply Rmax_lub; lra). assert (Hm2 : Rmax 0 lo <= hi) by (apply Rmax_lub; lra).
  split; [|split].
  - split; [lra|]. split; [apply HS; destruct (Hiv (Rmax 0 lo)) as [_ K]; specialize (K ltac:(lra)); tauto|].
    intros t Ht Hin. apply HS in Hin. destruct (Hiv t) as [K _]. specialize (K ltac:(split; [lra|split; [done|done]])).
    apply Rmax_lub; lra.
  - rewrite <- Edd. done.
  - intros Hout. assert (0 < lo).
    { apply Rnot_le_lt. intros Hl. apply Hout, HS0. destruct (Hiv 0) as [_ K]. specialize (K ltac:(lra)). tauto. }
    rewrite Rmax_right by lra. apply outward_placed; [done|]. rewrite object_along. split; [apply (Hfs v n); apply elem_of_list_lookup_2 with f; done|].
    intros y Hy. specialize (Hy v n (elem_of_list_lookup_2 _ _ _ Ef)). fold p0 p1. unfold along.
    assert (dot3 (sub3 y (add3 p0 (scl lo (sub3 p1 p0)))) n = dot3 (sub3 y v) n - dot3 (sub3 (add3 p0 (scl lo (sub3 p1 p0))) v) n) as ->.
    { destruct y, v, n, (add3 p0 (scl lo (sub3 p1 p0))). unfold dot3, sub3; simpl. ring. }
    lra.
Qed.

Lemma poly_defined faces c v n :
  qlsq (rc_orn c) = 1 →
  (∀ v n, (v, n) ∈ faces → unit3 n ∧ eps <= Rabs (dot3 (sub3 (rc_p1 c) (rc_p0 c)) (rotate (rc_orn c) n))) →
  (v, n) ∈ faces → dot3 (sub3 (rc_p1 c) (rc_p0 c)) (rotate (rc_orn c) n) < 0 →
  GeoModel.dist (to_world v (rc_pos c) (rc_orn c)) (rc_p0 c) <= 10 ^ 20 →
  ∃ o, raycast_polyhedron faces c = Ok o.
Proof.
  intros Hq Hfs Hin Hneg Hdist. unfold raycast_polyhedron.
  set (p0 := to_object (rc_p0 c) (rc_pos c) (rc_orn c)). set (p1 := to_object (rc_p1 c) (rc_pos c) (rc_orn c)).
  assert (Ed : sub3 p1 p0 = rotate (qconj (rc_orn c)) (sub3 (rc_p1 c) (rc_p0 c))) by apply object_sub.
  assert (Edd : ∀ n, dot3 (sub3 p1 p0) n = dot3 (sub3 (rc_p1 c) (rc_p0 c)) (rotate (rc_orn c) n)).
  { intros n'. rewrite Ed. rewrite <- (rotate_dot (rc_orn c)) by done. rewrite conj_inv' by done. done. }
  assert (Hcomm : ∀ a b, dot3 a b = dot3 b a) by (intros a b; destruct a, b; unfold dot3; simpl; ring).
  assert (Hcl : Forall (λ vn, eps <= Rabs (dot3 (snd vn) (sub3 p1 p0))) faces).
  { apply Forall_forall. intros [v' n'] Hin'. simpl. rewrite Hcomm, Edd. apply (Hfs v' n' Hin'). }
  pose proof (poly_faces_ok p0 (sub3 p1 p0) faces faces 0 (- scalar_max) scalar_max None _ ltac:(auto) Hcl ivl_init eq_refl) as B.
  destruct (poly_faces _ _ _ _ _) as [[[lo hi] face]|]; [|eauto].
  destruct (_ || _); [eauto|]. destruct B as (_ & _ & Hlow & Hface). destruct face as [f|].
  { destruct Hface as (v' & n' & -> & _). simpl. eauto. }
  exfalso. rewrite <- Edd in Hneg. specialize (Hlow v n Hin Hneg). destruct (Hfs v n Hin) as [Hu He]. rewrite <- Edd in He.
  assert (Hlen : len (sub3 v p0) <= 10 ^ 20).
  { unfold GeoModel.dist in Hdist. assert (sub3 (to_world v (rc_pos c) (rc_orn c)) (rc_p0 c) = rotate (rc_orn c) (sub3 v p0)) as E.
    { rewrite rotate_sub. unfold p0, to_object. rewrite conj_inv' by done.
      unfold to_world. destruct (rotate (rc_orn c) v), (rc_pos c), (rc_p0 c). unfold sub3, add3; simpl. f_equal; ring. }
    rewrite E in Hdist. unfold len, lsq in *. rewrite rotate_dot in Hdist by done. done. }
  assert (Hd : Rabs (dot3 (sub3 v p0) n) <= 10 ^ 20).
  { pose proof (lagrange (sub3 v p0) n) as L. pose proof (lsq_nonneg (cross3 (sub3 v p0) n)) as L0. rewrite L in L0.
    unfold unit3 in Hu. rewrite Hu in L0. fold (lsq (sub3 v p0)) in L0. rewrite <- len_sq in L0. pose proof (len_nonneg (sub3 v p0)).
    set (x := dot3 (sub3 v p0) n) in *. set (l := len (sub3 v p0)) in *. assert (Rabs x <= l); [|lra]. unfold Rabs. destruct Rcase_abs; nra. }
  rewrite (Hcomm n) in Hlow. set (x := dot3 (sub3 v p0) n) in *. set (y := dot3 (sub3 p1 p0) n) in *.
  pose proof scalar_max_big as Hbig. assert (Hy : y <= - eps) by (unfold Rabs in He; destruct Rcase_abs; lra).
  assert (E : x / y * y = x) by (field; lra). unfold eps in Hy. subst lo.
  assert (x / y <= - 10 ^ 30) by lra. assert (10 ^ 30 / 8388608 <= x); [|unfold Rabs in Hd; simpl in *; destruct Rcase_abs; lra].
  set (q := x / y) in *. rewrite <- E. assert (0 < 10 ^ 30) by (simpl; lra). nra.
Qed.

(** a face that the ray is parallel to, with the start strictly behind it *)
Lemma poly_parallel_none faces c v n :
  qlsq (rc_orn c) = 1 →
  (v, n) ∈ faces → Rabs (dot3 (sub3 (rc_p1 c) (rc_p0 c)) (rotate (rc_orn c) n)) < eps →
  dot3 (sub3 (rc_p0 c) (to_world v (rc_pos c) (rc_orn c))) (rotate (rc_orn c) n) < 0 →
  raycast_polyhedron faces c = Ok None.
Proof.
  intros Hq Hin Hpar Hb. unfold raycast_polyhedron.
  set (p0 := to_object (rc_p0 c) (rc_pos c) (rc_orn c)). set (p1 := to_object (rc_p1 c) (rc_pos c) (rc_orn c)).
  assert (Hcomm : ∀ a b, dot3 a b = dot3 b a) by (intros a b; destruct a, b; unfold dot3; simpl; ring).
  assert (Ed : Rabs (dot3 n (sub3 p1 p0)) < eps).
  { rewrite Hcomm. unfold p0, p1. rewrite object_sub. rewrite <- (rotate_dot (rc_orn c)) by done. rewrite conj_inv' by done. done. }
  assert (Hd : 0 < dot3 (sub3 v p0) n).
  { assert (sub3 (rc_p0 c) (to_world v (rc_pos c) (rc_orn c)) = rotate (rc_orn c) (sub3 p0 v)) as E.
    { rewrite rotate_sub. unfold p0, to_object. rewrite conj_inv' by done.
      unfold to_world. destruct (rotate (rc_orn c) v), (rc_pos c), (rc_p0 c). unfold sub3, add3; simpl. f_equal; ring. }
    rewrite E, rotate_dot in Hb by done.
    assert (dot3 (sub3 v p0) n = - dot3 (sub3 p0 v) n) as -> by (destruct v, p0, n; unfold dot3, sub3; simpl; ring). lra. }
  clear -Hin Ed Hd.
  assert (∀ faces i st, (v, n) ∈ faces → poly_faces p0 (sub3 p1 p0) i faces st = None) as ->; [|done|done].
  clear faces Hin. induction faces as [|[v' n'] faces IH]; intros i [[lo hi] f] Hin; [inversion Hin|].
  cbn [poly_faces]. apply elem_of_cons in Hin as [[= <- <-]|Hin].
  - assert (rltb (Rabs (dot3 n (sub3 p1 p0))) eps = true) as -> by (apply rltb_true; done).
    assert (rltb 0 (dot3 (sub3 v p0) n) = true) as -> by (apply rltb_true; done). done.
  - destruct (rltb (Rabs _) eps); [destruct (rltb 0 _); [done|apply IH, Hin]|].
    destruct (rltb (dot3 n' _) 0); [destruct (rltb lo _)|destruct (rltb _ hi)]; (match goal with |- context [if rltb ?a ?b then None else _] => destruct (rltb a b) end); first [reflexivity | apply IH, Hin].
Qed.
