(** Proofs about quaternions, matrices and frames. *)
From Verif Require Import Outcome BoxModel GeoModel RotSpec.
From Coq Require Import Reals Lra Psatz.
Local Open Scope R_scope.

Definition unitq (q : quat) : Prop := qlsq q = 1.

Lemma eps_pos : 0 < eps.
Proof. unfold eps. lra. Qed.
Lemma eps_small : eps < / 1000000.
Proof. unfold eps. lra. Qed.
Lemma tiny_pos : 0 < tiny.
Proof. unfold tiny. lra. Qed.
Lemma tiny_small : tiny < / 1000000.
Proof. unfold tiny. lra. Qed.

Lemma v3_eq (u v : v3) : vx u = vx v → vy u = vy v → vz u = vz v → u = v.
Proof. destruct u, v; simpl; by intros -> -> ->. Qed.
Lemma q_eq (u v : quat) : qx u = qx v → qy u = qy v → qz u = qz v → qw u = qw v → u = v.
Proof. destruct u, v; simpl; by intros -> -> -> ->. Qed.
Lemma m_eq (m n : mat) : r0 m = r0 n → r1 m = r1 n → r2 m = r2 n → m = n.
Proof. destruct m, n; simpl; by intros -> -> ->. Qed.

Lemma rltb_true a b : rltb a b = true ↔ a < b.
Proof. unfold rltb. destruct (Rlt_dec a b); split; done. Qed.
Lemma rltb_false a b : rltb a b = false ↔ b <= a.
Proof. unfold rltb. destruct (Rlt_dec a b); split; try done; lra. Qed.
Lemma rleb_true a b : rleb a b = true ↔ a <= b.
Proof. unfold rleb. destruct (Rle_dec a b); split; done. Qed.
Lemma reqb_true a b : reqb a b = true ↔ a = b.
Proof. unfold reqb. destruct (Req_EM_T a b); split; done. Qed.

(** Opens every record. *)
Ltac open_all :=
  repeat match goal with
  | v : vec R |- _ => let a := fresh "a" in let b := fresh "b" in let c := fresh "c" in destruct v as [a b c]
  | q : quat |- _ => let a := fresh "a" in let b := fresh "b" in let c := fresh "c" in let d := fresh "d" in
      destruct q as [a b c d]
  | m : mat |- _ => let a := fresh "a" in let b := fresh "b" in let c := fresh "c" in destruct m as [a b c]
  end.
Ltac unf :=
  unfold to_object, to_world, to_object_m, to_world_m, project_direction, project_plane, turn, unitq, unit3,
    rotate, lerp3, adjugate, det, triple3, dsq, lsq, mvec, vmat, mmul, mtrans, mcols, mscale, mid, mat0,
    qmul, qconj, qlsq, qdot, qscale, qdiv, qid,
    add3, sub3, neg3, mul3, scl, div3, dot3, cross3, col0, col1, col2, ex, ey, ez, vec0 in *;
  cbn [vx vy vz qx qy qz qw r0 r1 r2] in *.
Ltac vring := intros; open_all; unf; try apply v3_eq; try apply q_eq; cbn [vx vy vz qx qy qz qw]; ring.

Lemma lsq_nonneg v : 0 <= lsq v.
Proof. open_all. unf. nra. Qed.
Lemma qlsq_nonneg q : 0 <= qlsq q.
Proof. open_all. unf. nra. Qed.
Lemma lsq_zero v : lsq v = 0 → v = vec0.
Proof. open_all. unf. intros. f_equal; nra. Qed.
Lemma len_sq v : len v * len v = lsq v.
Proof. apply sqrt_sqrt, lsq_nonneg. Qed.
Lemma len_nonneg v : 0 <= len v.
Proof. apply sqrt_pos. Qed.
Lemma qlen_sq q : qlen q * qlen q = qlsq q.
Proof. apply sqrt_sqrt, qlsq_nonneg. Qed.
Lemma qlen_nonneg q : 0 <= qlen q.
Proof. apply sqrt_pos. Qed.
Lemma qlen_unit q : unitq q → qlen q = 1.
Proof. unfold unitq, qlen. intros ->. apply sqrt_1. Qed.
Lemma len_pos v : v ≠ vec0 → 0 < len v.
Proof.
  intros H. destruct (Rle_lt_or_eq_dec _ _ (len_nonneg v)) as [L|L]; [done|].
  exfalso. apply H, lsq_zero. rewrite <- len_sq, <- L. ring.
Qed.

(** * rotate *)
(** The Euler-Rodrigues form, valid for every quaternion. *)
Lemma rotate_gen q v :
  rotate q v = ((1 - 2 * (qx q * qx q + qy q * qy q + qz q * qz q)) * v +
    (2 * qw q) * cross3 (V3 (qx q) (qy q) (qz q)) v +
    (2 * dot3 (V3 (qx q) (qy q) (qz q)) v) * V3 (qx q) (qy q) (qz q))%V.
Proof. vring. Qed.

Lemma rotate_add q u v : rotate q (u + v)%V = (rotate q u + rotate q v)%V.
Proof. vring. Qed.
Lemma rotate_scl q s v : rotate q (s * v)%V = (s * rotate q v)%V.
Proof. vring. Qed.
Lemma rotate_neg q v : rotate q (- v)%V = (- rotate q v)%V.
Proof. vring. Qed.
Lemma rotate_sub q u v : rotate q (u - v)%V = (rotate q u - rotate q v)%V.
Proof. vring. Qed.

Lemma rotate_dot q u v : unitq q → dot3 (rotate q u) (rotate q v) = dot3 u v.
Proof.
  intros H.
  assert (dot3 (rotate q u) (rotate q v) = dot3 u v +
    4 * (qlsq q - 1) * dot3 (cross3 (V3 (qx q) (qy q) (qz q)) u) (cross3 (V3 (qx q) (qy q) (qz q)) v)) as E
    by vring.
  rewrite E. unfold unitq in H. rewrite H. ring.
Qed.

Lemma conj_inv q v : unitq q → rotate (qconj q) (rotate q v) = v.
Proof.
  intros H.
  assert (rotate (qconj q) (rotate q v) = v + (4 * (1 - qlsq q)) *
     (dot3 (V3 (qx q) (qy q) (qz q)) v * V3 (qx q) (qy q) (qz q) -
      dot3 (V3 (qx q) (qy q) (qz q)) (V3 (qx q) (qy q) (qz q)) * v))%V as E by vring.
  rewrite E. unfold unitq in H. rewrite H. vring.
Qed.
Lemma unit_conj q : unitq q → unitq (qconj q).
Proof. open_all. unf. intros. nra. Qed.
Lemma conj_conj q : qconj (qconj q) = q.
Proof. vring. Qed.
Lemma conj_inv' q v : unitq q → rotate q (rotate (qconj q) v) = v.
Proof. intros H. rewrite <- (conj_conj q) at 1. by apply conj_inv, unit_conj. Qed.

Lemma qlsq_mul q r : qlsq (qmul q r) = qlsq q * qlsq r.
Proof. vring. Qed.
Lemma unit_mul q r : unitq q → unitq r → unitq (qmul q r).
Proof. unfold unitq. intros. rewrite qlsq_mul. nra. Qed.

Lemma rotate_mul q r v : unitq q → unitq r → rotate (qmul q r) v = rotate q (rotate r v).
Proof.
  intros Hq Hr. unfold unitq in *.
  (* with unit length, 1 - 2|r|^2 = w^2 - |r|^2 *)
  assert (∀ p u, qlsq p = 1 → rotate p u =
    ((qw p * qw p - (qx p * qx p + qy p * qy p + qz p * qz p)) * u +
    (2 * qw p) * cross3 (V3 (qx p) (qy p) (qz p)) u +
    (2 * dot3 (V3 (qx p) (qy p) (qz p)) u) * V3 (qx p) (qy p) (qz p))%V) as E.
  { intros p u Hp. rewrite rotate_gen. f_equal. f_equal. f_equal. unfold qlsq in Hp. nra. }
  rewrite (E (qmul q r)) by (rewrite qlsq_mul; nra).
  rewrite (E q), (E r) by done. clear. vring.
Qed.

Lemma rotate_cross q u v : unitq q → rotate q (cross3 u v) = cross3 (rotate q u) (rotate q v).
Proof.
  intros H.
  assert (∀ p u, qlsq p = 1 → rotate p u =
    ((qw p * qw p - (qx p * qx p + qy p * qy p + qz p * qz p)) * u +
    (2 * qw p) * cross3 (V3 (qx p) (qy p) (qz p)) u +
    (2 * dot3 (V3 (qx p) (qy p) (qz p)) u) * V3 (qx p) (qy p) (qz p))%V) as E.
  { intros p w Hp. rewrite rotate_gen. f_equal. f_equal. f_equal. unfold qlsq in Hp. nra. }
  (* both sides are multiplied by |q|^2 = 1 to be of equal degree *)
  transitivity (qlsq q * rotate q (cross3 u v))%V.
  { unfold unitq in H. rewrite H. vring. }
  rewrite !(E q) by done. clear. vring.
Qed.

Lemma rotate_rotation q : unitq q → is_rotation (rotate q).
Proof.
  intros H. split_and!; intros; [apply rotate_add|apply rotate_scl|by apply rotate_dot|by apply rotate_cross].
Qed.

(** * to_matrix *)
Lemma to_matrix_rotate q v : unitq q → mvec (to_matrix q) v = rotate q v.
Proof.
  intros H. unfold to_matrix. unfold unitq in H. rewrite H. replace (2 / 1) with 2 by field. vring.
Qed.
Lemma qdiv_unit q : 0 < qlen q → unitq (qdiv q (qlen q)).
Proof.
  intros H. unfold unitq.
  assert (qlsq (qdiv q (qlen q)) = qlsq q / (qlen q * qlen q)) as ->.
  { destruct q as [a b c d]. set (l := qlen _) in *. unf. field. lra. }
  rewrite qlen_sq. apply Rinv_r. rewrite <- qlen_sq. nra.
Qed.
Lemma to_matrix_scale q s : s ≠ 0 → qlsq q ≠ 0 → to_matrix (qscale s q) = to_matrix q.
Proof.
  intros Hs Hq. unfold to_matrix.
  assert (qlsq (qscale s q) = s * s * qlsq q) as -> by vring.
  unfold qscale. cbn [qx qy qz qw].
  apply m_eq; cbn [r0 r1 r2]; f_equal; field; done.
Qed.
Lemma to_matrix_norm q : 0 < qlen q → to_matrix q = to_matrix (qdiv q (qlen q)).
Proof.
  intros H. rewrite <- (to_matrix_scale q (/ qlen q)).
  - f_equal. unfold qscale, qdiv. f_equal; unfold Rdiv; ring.
  - apply Rinv_neq_0_compat. lra.
  - rewrite <- qlen_sq. nra.
Qed.

Lemma is_rotation_ext f g : (∀ v, f v = g v) → is_rotation g → is_rotation f.
Proof.
  intros E (A & B & C & D). split_and!; intros; rewrite !E; auto.
Qed.

Lemma qlen_pos q : q ≠ Quat 0 0 0 0 → 0 < qlen q.
Proof.
  intros H. destruct (Rle_lt_or_eq_dec _ _ (qlen_nonneg q)) as [L|L]; [done|].
  exfalso. apply H. assert (qlsq q = 0) as E by (rewrite <- qlen_sq, <- L; ring).
  clear - E. open_all. unf. f_equal; nra.
Qed.

Lemma to_matrix_rotation q : q ≠ Quat 0 0 0 0 → is_rotation (mvec (to_matrix q)).
Proof.
  intros H%qlen_pos. rewrite to_matrix_norm by done.
  eapply is_rotation_ext; [intros v; apply to_matrix_rotate, qdiv_unit; done|].
  by apply rotate_rotation, qdiv_unit.
Qed.

(** The rows and columns of a rotation matrix. *)
Record rotm (m : mat) : Prop := {
  rm_00 : dot3 (col0 m) (col0 m) = 1; rm_11 : dot3 (col1 m) (col1 m) = 1; rm_22 : dot3 (col2 m) (col2 m) = 1;
  rm_01 : dot3 (col0 m) (col1 m) = 0; rm_02 : dot3 (col0 m) (col2 m) = 0; rm_12 : dot3 (col1 m) (col2 m) = 0;
  rm_c : cross3 (col0 m) (col1 m) = col2 m;
  rm_c' : cross3 (col1 m) (col2 m) = col0 m;
  rm_c'' : cross3 (col2 m) (col0 m) = col1 m }.
Lemma rotation_rotm m : is_rotation (mvec m) → rotm m.
Proof.
  intros (_ & _ & C & D).
  assert (mvec m ex = col0 m) as E0 by vring.
  assert (mvec m ey = col1 m) as E1 by vring.
  assert (mvec m ez = col2 m) as E2 by vring.
  split; rewrite <- ?E0, <- ?E1, <- ?E2; rewrite ?C, <- ?D;
    try (unf; ring); f_equal; vring.
Qed.
Lemma rotm_rotation m : rotm m → is_rotation (mvec m).
Proof.
  intros H.
  assert (∀ v, mvec m v = (vx v * col0 m + vy v * col1 m + vz v * col2 m)%V) as E by vring.
  destruct H as [A00 A11 A22 A01 A02 A12 C0 C1 C2].
  split_and!; intros.
  - vring.
  - vring.
  - rewrite !E. destruct u as [a b c], v as [d e f]. cbn [vx vy vz].
    assert (∀ a b c d e f (p q r : v3), dot3 (a * p + b * q + c * r)%V (d * p + e * q + f * r)%V =
      a * d * dot3 p p + b * e * dot3 q q + c * f * dot3 r r + (a * e + b * d) * dot3 p q +
      (a * f + c * d) * dot3 p r + (b * f + c * e) * dot3 q r) as X by (clear; vring).
    rewrite X, A00, A11, A22, A01, A02, A12. unfold dot3; cbn. ring.
  - rewrite !E. destruct u as [a b c], v as [d e f].
    assert (∀ a b c d e f (p q r : v3), cross3 (a * p + b * q + c * r)%V (d * p + e * q + f * r)%V =
      ((b * f - c * e) * cross3 q r + (c * d - a * f) * cross3 r p + (a * e - b * d) * cross3 p q)%V) as X
      by (clear; vring).
    rewrite X, C0, C1, C2. unfold cross3; cbn. done.
Qed.
