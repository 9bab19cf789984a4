(** Facts about boxes used by the trees. *)
From Verif Require Import Outcome BoxModel.
From Coq Require Import QArith Qabs Lqa.

(** Componentwise inclusion of boxes. *)
Definition vle_prop {R} (leb : R → R → bool) (v w : vec R) : Prop :=
  leb (vx v) (vx w) = true ∧ leb (vy v) (vy w) = true ∧ leb (vz v) (vz w) = true.
Definition box_in {R} (leb : R → R → bool) (a b : aabb R) : Prop :=
  vle_prop leb (bmin b) (bmin a) ∧ vle_prop leb (bmax a) (bmax b).

Section proofs.
Context {R : Type} (leb ltb : R → R → bool) (add sub : R → R → R) (O : total_order leb ltb).

Lemma leb_refl a : leb a a = true.
Proof using O. by destruct (to_total _ _ O a a). Qed.
Lemma smin_l a b : leb (smin ltb a b) a = true.
Proof using O.
  unfold smin. rewrite (to_lt _ _ O). destruct (leb a b) eqn:E; simpl; [apply leb_refl|].
  destruct (to_total _ _ O a b); congruence.
Qed.
Lemma smin_r a b : leb (smin ltb a b) b = true.
Proof using O.
  unfold smin. rewrite (to_lt _ _ O). destruct (leb a b) eqn:E; simpl; [done|apply leb_refl].
Qed.
Lemma smax_l a b : leb a (smax ltb a b) = true.
Proof using O.
  unfold smax. rewrite (to_lt _ _ O). destruct (leb b a) eqn:E; simpl; [apply leb_refl|].
  destruct (to_total _ _ O a b); congruence.
Qed.
Lemma smax_r a b : leb b (smax ltb a b) = true.
Proof using O.
  unfold smax. rewrite (to_lt _ _ O). destruct (leb b a) eqn:E; simpl; [done|apply leb_refl].
Qed.
Lemma smin_glb a b c : leb c a = true → leb c b = true → leb c (smin ltb a b) = true.
Proof using Type. unfold smin. by destruct (ltb b a). Qed.
Lemma smax_lub a b c : leb a c = true → leb b c = true → leb (smax ltb a b) c = true.
Proof using Type. unfold smax. by destruct (ltb a b). Qed.

Lemma enclose_l a b : box_in leb a (bx_enclose ltb a b).
Proof using O. split; (split_and!; simpl; [apply smin_l || apply smax_l..]). Qed.
Lemma enclose_r a b : box_in leb b (bx_enclose ltb a b).
Proof using O. split; (split_and!; simpl; [apply smin_r || apply smax_r..]). Qed.
(** It is the least such box. *)
Lemma enclose_least a b c : box_in leb a c → box_in leb b c → box_in leb (bx_enclose ltb a b) c.
Proof using Type.
  intros [(?&?&?) (?&?&?)] [(?&?&?) (?&?&?)].
  split; (split_and!; simpl; [by apply smin_glb || by apply smax_lub..]).
Qed.
Lemma box_in_refl a : box_in leb a a.
Proof using O. split; split_and!; apply leb_refl. Qed.
Lemma box_in_trans a b c : box_in leb a b → box_in leb b c → box_in leb a c.
Proof using O.
  intros [(?&?&?) (?&?&?)] [(?&?&?) (?&?&?)]. split; split_and!; by eapply (to_trans _ _ O).
Qed.

Lemma vle_iff v w : vle leb v w = true ↔ vle_prop leb v w.
Proof using Type. unfold vle, vle_prop. rewrite !andb_true_iff. tauto. Qed.
Lemma contains_in a b : bx_contains leb a b = true → box_in leb b a.
Proof using Type.
  unfold bx_contains, bx_contains_pt. rewrite !andb_true_iff, !vle_iff.
  intros ((H1 & H2) & (H3 & H4)). by split.
Qed.
(** On boxes with min <= max, [contains] is inclusion. *)
Lemma contains_iff a b : vle_prop leb (bmin b) (bmax b) → bx_contains leb a b = true ↔ box_in leb b a.
Proof using O.
  intros Hw. split; [apply contains_in|]. intros [(?&?&?) (?&?&?)]. destruct Hw as (?&?&?).
  unfold bx_contains, bx_contains_pt. rewrite !andb_true_iff, !vle_iff.
  unfold vle_prop. split_and!; try done; by eapply (to_trans _ _ O).
Qed.

Lemma inset_in b d :
  (∀ x, leb (add x (vx d)) x = true ∧ leb x (sub x (vx d)) = true) →
  (∀ x, leb (add x (vy d)) x = true ∧ leb x (sub x (vy d)) = true) →
  (∀ x, leb (add x (vz d)) x = true ∧ leb x (sub x (vz d)) = true) →
  box_in leb b (bx_inset add sub b d).
Proof using Type. intros H1 H2 H3. split; split_and!; simpl; apply H1 || apply H2 || apply H3. Qed.

Lemma intersect_mono c a b :
  box_in leb a b → bx_intersect leb a c = true → bx_intersect leb b c = true.
Proof using O.
  unfold bx_intersect. rewrite !andb_true_iff. intros [(?&?&?) (?&?&?)] (((((?&?)&?)&?)&?)&?).
  split_and!; by eapply (to_trans _ _ O).
Qed.
Lemma intersect_sym a b : bx_intersect leb a b = bx_intersect leb b a.
Proof using Type.
  unfold bx_intersect. destruct (leb (vx (bmin a)) (vx (bmax b))), (leb (vx (bmin b)) (vx (bmax a))),
    (leb (vy (bmin a)) (vy (bmax b))), (leb (vy (bmin b)) (vy (bmax a))),
    (leb (vz (bmin a)) (vz (bmax b))), (leb (vz (bmin b)) (vz (bmax a))); done.
Qed.
(** Boxes with min <= max intersect exactly when they share a point. *)
Lemma intersect_point a b :
  vle_prop leb (bmin a) (bmax a) → vle_prop leb (bmin b) (bmax b) →
  bx_intersect leb a b = true ↔
  ∃ p, bx_contains_pt leb a p = true ∧ bx_contains_pt leb b p = true.
Proof using O.
  intros (?&?&?) (?&?&?). unfold bx_intersect, bx_contains_pt.
  setoid_rewrite andb_true_iff. setoid_rewrite vle_iff. rewrite !andb_true_iff. split.
  - intros (((((?&?)&?)&?)&?)&?). exists (vmax ltb (bmin a) (bmin b)).
    unfold vle_prop. split_and!; simpl; try apply smax_l; try apply smax_r; by apply smax_lub.
  - intros (p & ((?&?&?)&(?&?&?)) & ((?&?&?)&(?&?&?))). split_and!; by eapply (to_trans _ _ O).
Qed.
End proofs.

(** ** Segments, over Q *)
Lemma Q_total_order : total_order Qle_bool (λ a b, negb (Qle_bool b a)).
Proof.
  split.
  - intros a b. rewrite !Qle_bool_iff. destruct (Qlt_le_dec a b); [left; lra|by right].
  - intros a b c. rewrite !Qle_bool_iff. lra.
  - done.
Qed.
Lemma Z_total_order : total_order Z.leb Z.ltb.
Proof.
  split.
  - intros a b. rewrite !Z.leb_le. lia.
  - intros a b c. rewrite !Z.leb_le. lia.
  - intros a b. apply Z.ltb_antisym.
Qed.

Lemma Qabs_le_iff a b : Qabs a <= b ↔ (a <= b ∧ - a <= b)%Q.
Proof.
  split.
  - intros H. pose proof (Qle_Qabs a). pose proof (Qle_Qabs (- a)). rewrite Qabs_opp in *. lra.
  - intros [H1 H2]. by apply Qabs_case.
Qed.

Section seg.
Context (eps : Q) (Heps : (0 <= eps)%Q).
Local Open Scope Q_scope.

Lemma if_neg_true (b c : bool) : (if negb b then false else c) = true ↔ b = true ∧ c = true.
Proof. destruct b, c; simpl; intuition congruence. Qed.

(** The test as inequalities, with half extents and centre expanded. *)
Lemma seg_box_true p0 p1 b :
  seg_box eps p0 p1 b = true ↔
  let lo := bmin b in let hi := bmax b in
  let mx := (vx p0 + vx p1) * (1#2) in let my := (vy p0 + vy p1) * (1#2) in let mz := (vz p0 + vz p1) * (1#2) in
  let dx := vx p1 - mx in let dy := vy p1 - my in let dz := vz p1 - mz in
  let ax := mx - (vx lo + vx hi) * (1#2) in let ay := my - (vy lo + vy hi) * (1#2) in
  let az := mz - (vz lo + vz hi) * (1#2) in
  let hx := vx hi - (vx lo + vx hi) * (1#2) in let hy := vy hi - (vy lo + vy hi) * (1#2) in
  let hz := vz hi - (vz lo + vz hi) * (1#2) in
  (Qabs ax <= hx + Qabs dx) ∧ (Qabs ay <= hy + Qabs dy) ∧ (Qabs az <= hz + Qabs dz) ∧
  (Qabs (ay * dz - az * dy) <= hy * (Qabs dz + eps) + hz * (Qabs dy + eps)) ∧
  (Qabs (az * dx - ax * dz) <= hz * (Qabs dx + eps) + hx * (Qabs dz + eps)) ∧
  (Qabs (ax * dy - ay * dx) <= hx * (Qabs dy + eps) + hy * (Qabs dx + eps)).
Proof.
  unfold seg_box, seg_axis, seg_cross. cbv zeta. rewrite !if_neg_true. rewrite !Qle_bool_iff. cbn [vx vy vz bmin bmax vadd vsub vscale].
  assert (true = true ↔ True) as -> by tauto. tauto.
Qed.

Lemma Qmul_le_l a b c : 0 <= a → b <= c → a * b <= a * c.
Proof. intros. nra. Qed.

(** One cross product axis is monotone in the box. *)
Lemma cross_mono m1 m2 d1 d2 e1 e2 l1 h1 l2 h2 l1' h1' l2' h2' :
  Qabs d1 <= e1 → Qabs d2 <= e2 → l1' <= l1 → h1 <= h1' → l2' <= l2 → h2 <= h2' →
  Qabs ((m1 - (l1 + h1) * (1#2)) * d2 - (m2 - (l2 + h2) * (1#2)) * d1) <=
    (h1 - (l1 + h1) * (1#2)) * e2 + (h2 - (l2 + h2) * (1#2)) * e1 →
  Qabs ((m1 - (l1' + h1') * (1#2)) * d2 - (m2 - (l2' + h2') * (1#2)) * d1) <=
    (h1' - (l1' + h1') * (1#2)) * e2 + (h2' - (l2' + h2') * (1#2)) * e1.
Proof.
  rewrite !Qabs_le_iff. intros [A1 A2] [B1 B2] L1 H1 L2 H2 [C1 C2].
  set (u1 := (h1' - h1) * (1#2)). set (v1 := (l1 - l1') * (1#2)).
  set (u2 := (h2' - h2) * (1#2)). set (v2 := (l2 - l2') * (1#2)).
  assert (0 <= u1 ∧ 0 <= v1 ∧ 0 <= u2 ∧ 0 <= v2) as (U1 & V1 & U2 & V2) by (unfold u1, v1, u2, v2; split_and!; lra).
  assert (P1 : 0 <= u1 * (e2 - d2)) by (apply Qmult_le_0_compat; lra).
  assert (P2 : 0 <= u1 * (e2 + d2)) by (apply Qmult_le_0_compat; lra).
  assert (P3 : 0 <= v1 * (e2 - d2)) by (apply Qmult_le_0_compat; lra).
  assert (P4 : 0 <= v1 * (e2 + d2)) by (apply Qmult_le_0_compat; lra).
  assert (P5 : 0 <= u2 * (e1 - d1)) by (apply Qmult_le_0_compat; lra).
  assert (P6 : 0 <= u2 * (e1 + d1)) by (apply Qmult_le_0_compat; lra).
  assert (P7 : 0 <= v2 * (e1 - d1)) by (apply Qmult_le_0_compat; lra).
  assert (P8 : 0 <= v2 * (e1 + d1)) by (apply Qmult_le_0_compat; lra).
  unfold u1, v1, u2, v2 in *. split; lra.
Qed.

Lemma seg_mono p0 p1 a b :
  box_in Qle_bool a b → seg_box eps p0 p1 a = true → seg_box eps p0 p1 b = true.
Proof using Heps.
  intros [(X1&Y1&Z1) (X2&Y2&Z2)]. rewrite !Qle_bool_iff in *. rewrite !seg_box_true. cbv zeta.
  destruct a as [[lx ly lz] [hx hy hz]], b as [[lx' ly' lz'] [hx' hy' hz']], p0 as [px py pz], p1 as [qx qy qz].
  cbn [vx vy vz bmin bmax] in *. intros (A1 & A2 & A3 & C1 & C2 & C3).
  assert (E : ∀ d, Qabs d <= Qabs d + eps) by (intros; lra).
  split_and!.
  - apply Qabs_le_iff in A1. apply Qabs_le_iff. lra.
  - apply Qabs_le_iff in A2. apply Qabs_le_iff. lra.
  - apply Qabs_le_iff in A3. apply Qabs_le_iff. lra.
  - eapply cross_mono; [apply E|apply E|done..|]. exact C1.
  - eapply cross_mono; [apply E|apply E|done..|]. exact C2.
  - eapply cross_mono; [apply E|apply E|done..|]. exact C3.
Qed.

(** The separating axis test never rejects a box that the segment meets. *)
Lemma axis_sound p q l h t :
  0 <= t <= 1 → l <= p + t * (q - p) <= h →
  Qabs ((p + q) * (1#2) - (l + h) * (1#2)) <= h - (l + h) * (1#2) + Qabs (q - (p + q) * (1#2)).
Proof.
  intros [T1 T2] [H1 H2].
  assert (B : Qabs (t * (q - p) - (1#2) * (q - p)) <= Qabs (q - (p + q) * (1#2))).
  { assert (t * (q - p) - (1#2) * (q - p) == (2 * t - 1) * (q - (p + q) * (1#2))) as -> by ring.
    rewrite Qabs_Qmult. assert (Qabs (2 * t - 1) <= 1) by (apply Qabs_le_iff; lra).
    pose proof (Qabs_nonneg (q - (p + q) * (1#2))) as N.
    assert (0 <= Qabs (q - (p + q) * (1 # 2)) * (1 - Qabs (2 * t - 1))) as N2 by (apply Qmult_le_0_compat; lra).
    lra. }
  set (E := Qabs (q - (p + q) * (1#2))) in *. apply Qabs_le_iff in B as [B1 B2].
  apply Qabs_le_iff. lra.
Qed.
Lemma cross_sound p1 q1 l1 h1 p2 q2 l2 h2 t :
  l1 <= p1 + t * (q1 - p1) <= h1 → l2 <= p2 + t * (q2 - p2) <= h2 →
  let m1 := (p1 + q1) * (1#2) in let m2 := (p2 + q2) * (1#2) in
  let d1 := q1 - m1 in let d2 := q2 - m2 in
  Qabs ((m1 - (l1 + h1) * (1#2)) * d2 - (m2 - (l2 + h2) * (1#2)) * d1) <=
  (h1 - (l1 + h1) * (1#2)) * (Qabs d2 + eps) + (h2 - (l2 + h2) * (1#2)) * (Qabs d1 + eps).
Proof using Heps.
  intros [A1 A2] [B1 B2] m1 m2 d1 d2.
  set (x1 := p1 + t * (q1 - p1)) in *. set (x2 := p2 + t * (q2 - p2)) in *.
  assert (EQ : (m1 - (l1 + h1) * (1#2)) * d2 - (m2 - (l2 + h2) * (1#2)) * d1 ==
    (x1 - (l1 + h1) * (1#2)) * d2 - (x2 - (l2 + h2) * (1#2)) * d1).
  { unfold x1, x2, d1, d2, m1, m2. ring. }
  rewrite EQ.
  set (k1 := h1 - (l1 + h1) * (1#2)). set (k2 := h2 - (l2 + h2) * (1#2)).
  set (y1 := x1 - (l1 + h1) * (1#2)). set (y2 := x2 - (l2 + h2) * (1#2)).
  assert (Y1 : - k1 <= y1 <= k1) by (unfold k1, y1; lra).
  assert (Y2 : - k2 <= y2 <= k2) by (unfold k2, y2; lra).
  clearbody k1 k2 y1 y2 d1 d2. clear - Heps Y1 Y2.
  pose proof (Qle_Qabs d1) as D1. pose proof (Qle_Qabs d2) as D2.
  pose proof (Qle_Qabs (- d1)) as D1'. pose proof (Qle_Qabs (- d2)) as D2'. rewrite Qabs_opp in D1', D2'.
  set (a1 := Qabs d1) in *. set (a2 := Qabs d2) in *. clearbody a1 a2.
  assert (M1 : 0 <= (k1 + y1) * (a2 + d2)) by (apply Qmult_le_0_compat; lra).
  assert (M2 : 0 <= (k1 - y1) * (a2 - d2)) by (apply Qmult_le_0_compat; lra).
  assert (M3 : 0 <= (k1 + y1) * (a2 - d2)) by (apply Qmult_le_0_compat; lra).
  assert (M4 : 0 <= (k1 - y1) * (a2 + d2)) by (apply Qmult_le_0_compat; lra).
  assert (M5 : 0 <= (k2 + y2) * (a1 + d1)) by (apply Qmult_le_0_compat; lra).
  assert (M6 : 0 <= (k2 - y2) * (a1 - d1)) by (apply Qmult_le_0_compat; lra).
  assert (M7 : 0 <= (k2 + y2) * (a1 - d1)) by (apply Qmult_le_0_compat; lra).
  assert (M8 : 0 <= (k2 - y2) * (a1 + d1)) by (apply Qmult_le_0_compat; lra).
  assert (E1 : 0 <= k1 * eps) by (apply Qmult_le_0_compat; lra).
  assert (E2 : 0 <= k2 * eps) by (apply Qmult_le_0_compat; lra).
  apply Qabs_le_iff. lra.
Qed.

(** [t] is the fraction along the segment of a point inside the box. *)
Definition on_seg (p0 p1 : vec Q) (t : Q) : vec Q :=
  V3 (vx p0 + t * (vx p1 - vx p0)) (vy p0 + t * (vy p1 - vy p0)) (vz p0 + t * (vz p1 - vz p0)).
Lemma seg_sound p0 p1 b t :
  0 <= t <= 1 → bx_contains_pt Qle_bool b (on_seg p0 p1 t) = true → seg_box eps p0 p1 b = true.
Proof using Heps.
  intros HT. unfold bx_contains_pt. rewrite andb_true_iff, !vle_iff.
  intros [(X1&Y1&Z1) (X2&Y2&Z2)]. rewrite !Qle_bool_iff in *. cbn [vx vy vz bmin bmax on_seg] in *.
  rewrite seg_box_true. cbv zeta. split_and!.
  - by apply (axis_sound _ _ _ _ t).
  - by apply (axis_sound _ _ _ _ t).
  - by apply (axis_sound _ _ _ _ t).
  - by apply (cross_sound _ _ _ _ _ _ _ _ t).
  - by apply (cross_sound _ _ _ _ _ _ _ _ t).
  - by apply (cross_sound _ _ _ _ _ _ _ _ t).
Qed.
End seg.
