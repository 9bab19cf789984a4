(** Proofs about segments and rectangles of the plane. *)
From Verif Require Import Outcome BoxModel GeoModel RotSpec RotProofs NearModel PlaneModel PlaneSpec.
From Coq Require Import Reals Lra Psatz.
Local Open Scope R_scope.

Lemma eps_pos2 : 0 < eps.
Proof. unfold eps. lra. Qed.
Lemma v2_eq (a b : v2) : ux a = ux b → uy a = uy b → a = b.
Proof. destruct a, b; simpl. congruence. Qed.

Lemma rleb_false a b : rleb a b = false ↔ b < a.
Proof. unfold rleb. destruct Rle_dec; split; intros; try done; try lra. Qed.
Ltac boolR := repeat match goal with
  | |- context [rltb ?a ?b] => let H := fresh "L" in
      destruct (rltb a b) eqn:H; [apply rltb_true in H|apply rltb_false in H]
  | |- context [rleb ?a ?b] => let H := fresh "L" in
      destruct (rleb a b) eqn:H; [apply rleb_true in H|apply rleb_false in H]
  end.

Lemma cross_x a b c d e f g h s t D :
  D ≠ 0 → D = (c - a) * (h - f) - (d - b) * (g - e) →
  s * D = (e - a) * (h - f) - (f - b) * (g - e) → t * D = (e - a) * (d - b) - (f - b) * (c - a) →
  a + s * (c - a) = e + t * (g - e) ∧ b + s * (d - b) = f + t * (h - f).
Proof.
  intros HD ED Es Et. split; (apply (Rmult_eq_reg_r D); [|done]).
  - transitivity (a * D + (s * D) * (c - a)); [ring|]. transitivity (e * D + (t * D) * (g - e)); [|ring].
    rewrite Es, Et, ED. ring.
  - transitivity (b * D + (s * D) * (d - b)); [ring|]. transitivity (f * D + (t * D) * (h - f)); [|ring].
    rewrite Es, Et, ED. ring.
Qed.
Lemma cross_uniq a b c d e f g h s t s' t' D :
  D ≠ 0 → D = (c - a) * (h - f) - (d - b) * (g - e) →
  s' * D = (e - a) * (h - f) - (f - b) * (g - e) → t' * D = (e - a) * (d - b) - (f - b) * (c - a) →
  a + s * (c - a) = e + t * (g - e) → b + s * (d - b) = f + t * (h - f) → s = s' ∧ t = t'.
Proof.
  intros HD ED Es Et H1 H2.
  assert (H3 : s * (c - a) = (e - a) + t * (g - e)) by lra.
  assert (H4 : s * (d - b) = (f - b) + t * (h - f)) by lra.
  assert (H5 : t * (g - e) = s * (c - a) - (e - a)) by lra.
  assert (H6 : t * (h - f) = s * (d - b) - (f - b)) by lra.
  split; (apply (Rmult_eq_reg_r D); [|done]).
  - rewrite Es, ED.
    replace (s * ((c - a) * (h - f) - (d - b) * (g - e))) with ((s * (c - a)) * (h - f) - (s * (d - b)) * (g - e)) by ring.
    rewrite H3, H4. ring.
  - rewrite Et, ED.
    replace (t * ((c - a) * (h - f) - (d - b) * (g - e))) with ((c - a) * (t * (h - f)) - (d - b) * (t * (g - e))) by ring.
    rewrite H5, H6. ring.
Qed.

(** Segments that are not parallel *)
Lemma segments_cross p0 p1 q0 q1 :
  eps < Rabs (perp2 (sub2 p1 p0) (sub2 q1 q0)) →
  ∃ l, intersect_segments p0 p1 q0 q1 = Ok l ∧
    ∀ x, shared p0 p1 q0 q1 x ↔ ∃ s t, l = [(s, t)] ∧ x = pt p0 p1 s ∧ x = pt q0 q1 t.
Proof.
  intros He. unfold intersect_segments. rewrite (proj2 (rltb_true _ _) He). simpl.
  set (D := perp2 (sub2 p1 p0) (sub2 q1 q0)) in *.
  assert (HD : D ≠ 0). { intros ->. rewrite Rabs_R0 in He. pose proof eps_pos2. lra. }
  set (s0 := perp2 (sub2 q0 p0) (sub2 q1 q0) * (1 / D)).
  set (t0 := perp2 (sub2 q0 p0) (sub2 p1 p0) * (1 / D)).
  assert (Es : s0 * D = perp2 (sub2 q0 p0) (sub2 q1 q0)) by (unfold s0; field; done).
  assert (Et : t0 * D = perp2 (sub2 q0 p0) (sub2 p1 p0)) by (unfold t0; field; done).
  eexists. split; [done|]. intros x.
  assert (Hm : pt p0 p1 s0 = pt q0 q1 t0).
  { destruct (cross_x (ux p0) (uy p0) (ux p1) (uy p1) (ux q0) (uy q0) (ux q1) (uy q1) s0 t0 D HD eq_refl Es Et).
    by apply v2_eq. }
  assert (Hu : ∀ s t, pt p0 p1 s = pt q0 q1 t → s = s0 ∧ t = t0).
  { intros s t H. unfold pt in H. injection H as H1 H2.
    exact (cross_uniq (ux p0) (uy p0) (ux p1) (uy p1) (ux q0) (uy q0) (ux q1) (uy q1) s t s0 t0 D HD eq_refl Es Et H1 H2). }
  split.
  - intros [(s & Hs & Ex) (t & Ht & Ex')]. destruct (Hu s t) as [-> ->]; [congruence|].
    exists s0, t0. split_and!; try congruence.
    boolR; simpl; try lra; done.
  - intros (s & t & El & Ex & Ex').
    destruct (rltb s0 0 || rltb 1 s0 || rltb t0 0 || rltb 1 t0) eqn:B; [done|].
    injection El as <- <-.
    apply orb_false_iff in B as [B B4]. apply orb_false_iff in B as [B B3]. apply orb_false_iff in B as [B1 B2].
    apply rltb_false in B1, B2, B3, B4.
    split; [exists s0|exists t0]; (split; [lra|congruence]).
Qed.

(** Parallel segments that are on different lines *)
Lemma segments_parallel p0 p1 q0 q1 :
  perp2 (sub2 p1 p0) (sub2 q1 q0) = 0 → eps <= Rabs (perp2 (sub2 q0 p0) (sub2 p1 p0)) →
  intersect_segments p0 p1 q0 q1 = Ok [] ∧ ∀ x, ¬ shared p0 p1 q0 q1 x.
Proof.
  intros HD HE. pose proof eps_pos2. split.
  - unfold intersect_segments. rewrite HD, Rabs_R0.
    rewrite (proj2 (rltb_false eps 0)) by lra. by rewrite (proj2 (rltb_false _ _) HE).
  - intros x [(s & Hs & E1) (t & Ht & E2)]. rewrite E1 in E2. unfold pt in E2. injection E2 as H1 H2.
    assert (perp2 (sub2 q0 p0) (sub2 p1 p0) = 0) as E; [|rewrite E, Rabs_R0 in HE; lra].
    destruct p0 as [a b], p1 as [c d], q0 as [e f], q1 as [g h].
    unfold perp2, sub2 in *. simpl in *.
    replace (e - a) with (s * (c - a) - t * (g - e)) by lra.
    replace (f - b) with (s * (d - b) - t * (h - f)) by lra.
    replace ((s * (c - a) - t * (g - e)) * (d - b) - (s * (d - b) - t * (h - f)) * (c - a))
      with (t * ((c - a) * (h - f) - (d - b) * (g - e))) by ring. rewrite HD. ring.
Qed.

(** Coordinates along a line *)
Lemma collinear_coords p0 p1 q : dot2 (sub2 p1 p0) (sub2 p1 p0) ≠ 0 →
  perp2 (sub2 q p0) (sub2 p1 p0) = 0 →
  q = pt p0 p1 (dot2 (sub2 q p0) (sub2 p1 p0) * (1 / dot2 (sub2 p1 p0) (sub2 p1 p0))).
Proof.
  intros Hn Hp. destruct p0 as [a b], p1 as [c d], q as [e f].
  unfold perp2, dot2, sub2, pt in *. simpl in *.
  assert (Hx : ∀ u v w z : R, w * w + z * z ≠ 0 → u * z = v * w → u = (u * w + v * z) / (w * w + z * z) * w).
  { intros u v w z H E. apply (Rmult_eq_reg_r (w * w + z * z)); [|done].
    transitivity (u * w * w + (u * z) * z); [ring|]. rewrite E. field. done. }
  assert (Hy : ∀ u v w z : R, w * w + z * z ≠ 0 → u * z = v * w → v = (u * w + v * z) / (w * w + z * z) * z).
  { intros u v w z H E. apply (Rmult_eq_reg_r (w * w + z * z)); [|done].
    transitivity ((v * w) * w + v * z * z); [ring|]. rewrite <- E. field. done. }
  apply v2_eq; simpl.
  - pose proof (Hx (e - a) (f - b) (c - a) (d - b) Hn ltac:(lra)). unfold Rdiv in *. rewrite Rmult_1_l. lra.
  - pose proof (Hy (e - a) (f - b) (c - a) (d - b) Hn ltac:(lra)). unfold Rdiv in *. rewrite Rmult_1_l. lra.
Qed.
Lemma pt_pt p0 p1 a b t : pt (pt p0 p1 a) (pt p0 p1 b) t = pt p0 p1 (a + t * (b - a)).
Proof. unfold pt. apply v2_eq; simpl; ring. Qed.
Lemma pt_inj p0 p1 s t : dot2 (sub2 p1 p0) (sub2 p1 p0) ≠ 0 → pt p0 p1 s = pt p0 p1 t → s = t.
Proof.
  intros Hn H. unfold pt in H. injection H as H1 H2. unfold dot2, sub2 in Hn. simpl in Hn.
  destruct (Req_dec (ux p1 - ux p0) 0) as [E|E]; [destruct (Req_dec (uy p1 - uy p0) 0) as [E'|E']|].
  - rewrite E, E' in Hn. lra.
  - apply (Rmult_eq_reg_r (uy p1 - uy p0)); [lra|done].
  - apply (Rmult_eq_reg_r (ux p1 - ux p0)); [lra|done].
Qed.

(** Segments of one line *)
Lemma segments_collinear p0 p1 q0 q1 :
  p0 ≠ p1 → q0 ≠ q1 →
  perp2 (sub2 p1 p0) (sub2 q1 q0) = 0 → perp2 (sub2 q0 p0) (sub2 p1 p0) = 0 →
  ∃ l, intersect_segments p0 p1 q0 q1 = Ok l ∧
    (∀ s t, (s, t) ∈ l → shared p0 p1 q0 q1 (pt p0 p1 s) ∧ shared p0 p1 q0 q1 (pt q0 q1 t)) ∧
    (∀ x, shared p0 p1 q0 q1 x → ∃ u, x = pt p0 p1 u ∧
       ((∃ a b, a ∈ l ∧ b ∈ l ∧ a.1 <= u <= b.1) ∨ ∃ a, l = [a] ∧ Rabs (u - a.1) < eps)) ∧
    (0 < dot2 (sub2 p1 p0) (sub2 q1 q0) → ∀ s t, (s, t) ∈ l → pt p0 p1 s = pt q0 q1 t).
Proof.
  intros Hp Hq HD HE. pose proof eps_pos2 as He.
  assert (Hn : ∀ a b : v2, a ≠ b → dot2 (sub2 b a) (sub2 b a) ≠ 0).
  { intros a b Hab E. apply Hab. unfold dot2, sub2 in E. simpl in E. apply Rplus_sqr_eq_0 in E as [E1 E2].
    apply v2_eq; lra. }
  pose proof (Hn _ _ Hp) as Np. pose proof (Hn _ _ Hq) as Nq. clear Hn.
  pose proof (collinear_coords p0 p1 q0 Np HE) as E0.
  assert (HE1 : perp2 (sub2 q1 p0) (sub2 p1 p0) = 0).
  { destruct p0, p1, q0, q1. unfold perp2, sub2 in *. simpl in *. lra. }
  pose proof (collinear_coords p0 p1 q1 Np HE1) as E1.
  unfold intersect_segments.
  rewrite HD, Rabs_R0. rewrite (proj2 (rltb_false eps 0)) by lra.
  rewrite HE, Rabs_R0. rewrite (proj2 (rltb_true 0 eps)) by lra.
  unfold rdiv. destruct (Req_EM_T (dot2 (sub2 p1 p0) (sub2 p1 p0)) 0) as [|_]; [done|]. simpl.
  destruct (Req_EM_T (dot2 (sub2 q1 q0) (sub2 q1 q0)) 0) as [|_]; [done|]. simpl.
  set (a := dot2 (sub2 q0 p0) (sub2 p1 p0) * (1 / dot2 (sub2 p1 p0) (sub2 p1 p0))) in *.
  set (b := dot2 (sub2 q1 p0) (sub2 p1 p0) * (1 / dot2 (sub2 p1 p0) (sub2 p1 p0))) in *.
  (* the other segment's coordinates *)
  assert (Hab : a ≠ b). { intros E. apply Hq. by rewrite E0, E1, E. }
  assert (Hdir : dot2 (sub2 p1 p0) (sub2 q1 q0) = (b - a) * dot2 (sub2 p1 p0) (sub2 p1 p0)).
  { unfold a, b. destruct p0, p1, q0, q1. unfold dot2, sub2 in *. simpl in *. field. done. }
  assert (Hpos : 0 < dot2 (sub2 p1 p0) (sub2 p1 p0)). { unfold dot2 in *. nra. }
  assert (Et : ∀ c, dot2 (sub2 (pt p0 p1 c) q0) (sub2 q1 q0) * (1 / dot2 (sub2 q1 q0) (sub2 q1 q0)) = (c - a) / (b - a)).
  { intros c. clear - E0 E1 Hab Np. clearbody a b.
    assert (F : ∀ x y, sub2 (pt p0 p1 x) (pt p0 p1 y) = scl2 (x - y) (sub2 p1 p0)).
    { intros. unfold pt, sub2, scl2. simpl. f_equal; ring. }
    rewrite E0, E1, !F. assert (G : ∀ x y v, dot2 (scl2 x v) (scl2 y v) = x * y * dot2 v v).
    { intros. unfold dot2, scl2. simpl. ring. }
    rewrite !G. field. split; [lra|done]. }
  assert (Et0 := Et 0). assert (Et1 := Et 1).
  replace (pt p0 p1 0) with p0 in Et0 by (unfold pt; apply v2_eq; simpl; ring).
  replace (pt p0 p1 1) with p1 in Et1 by (unfold pt; apply v2_eq; simpl; ring).
  rewrite Et0, Et1. clear Et0 Et1 Et.
  assert (Hq' : ∀ t, pt q0 q1 t = pt p0 p1 (a + t * (b - a))).
  { intros t. rewrite E0, E1. apply pt_pt. }
  assert (Hsh : ∀ u, shared p0 p1 q0 q1 (pt p0 p1 u) ↔ 0 <= u <= 1 ∧ (a <= u <= b ∨ b <= u <= a)).
  { intros u. split.
    - intros [(s & Hs & X) (t & Ht & Y)]. apply pt_inj in X; [|done]. subst s.
      rewrite Hq' in Y. apply pt_inj in Y; [|done]. split; [done|]. subst u.
      destruct (Rle_dec a b); [left|right]; nra.
    - intros [Hu Hu']. split; [by exists u|]. exists ((u - a) / (b - a)). split.
      + destruct Hu' as [Hu'|Hu'].
        * split; [apply Rmult_le_pos; [lra|left; apply Rinv_0_lt_compat; lra]|].
          apply (Rmult_le_reg_r (b - a)); [lra|]. unfold Rdiv. rewrite Rmult_assoc, Rinv_l; lra.
        * replace ((u - a) / (b - a)) with ((a - u) / (a - b)) by (field; lra).
          split; [apply Rmult_le_pos; [lra|left; apply Rinv_0_lt_compat; lra]|].
          apply (Rmult_le_reg_r (a - b)); [lra|]. unfold Rdiv. rewrite Rmult_assoc, Rinv_l; lra.
      + rewrite Hq'. f_equal. field. lra. }
  (* where the clamped values are *)
  set (ct := λ c, clamp_unit ((c - a) / (b - a))).
  assert (Hct : ∀ c, a + ct c * (b - a) = Rmax (Rmin a b) (Rmin c (Rmax a b))).
  { intros c. unfold ct, clamp_unit.
    destruct (Rle_dec a b) as [Lab|Lab].
    - rewrite (Rmin_left a b), (Rmax_right a b) by lra.
      assert (Q : (c - a) / (b - a) * (b - a) = c - a) by (field; lra).
      destruct (Rlt_dec ((c - a) / (b - a)) 0); [|destruct (Rlt_dec 1 ((c - a) / (b - a)))].
      + rewrite Rmin_left, Rmax_left by nra. ring.
      + rewrite Rmin_right, Rmax_right by nra. ring.
      + rewrite Rmin_left, Rmax_right by nra. lra.
    - rewrite (Rmin_right a b), (Rmax_left a b) by lra.
      assert (Q : (c - a) / (b - a) * (b - a) = c - a) by (field; lra).
      destruct (Rlt_dec ((c - a) / (b - a)) 0); [|destruct (Rlt_dec 1 ((c - a) / (b - a)))].
      + rewrite Rmin_right, Rmax_right by nra. ring.
      + rewrite Rmin_left, Rmax_left by nra. ring.
      + rewrite Rmin_left, Rmax_right by nra. lra. }
  fold (ct 0) (ct 1).
  destruct ((rltb a 0 && rltb b 0) || (rltb 1 a && rltb 1 b)) eqn:B.
  { exists []. split; [done|]. split_and!.
    - intros s t Hin. by apply elem_of_nil in Hin.
    - intros x Hx. destruct (Hx) as [(u & Hu & ->) _]. apply Hsh in Hx as [_ Hx]. exfalso.
      apply orb_true_iff in B as [B|B]; apply andb_true_iff in B as [B1 B2]; apply rltb_true in B1, B2; lra.
    - intros _ s t Hin. by apply elem_of_nil in Hin. }
  assert (Hov : (0 <= a ∨ 0 <= b) ∧ (a <= 1 ∨ b <= 1)).
  { apply orb_false_iff in B as [B1 B2]. apply andb_false_iff in B1, B2.
    rewrite !rltb_false in B1, B2. tauto. }
  clear B.
  assert (Hc : ∀ s, 0 <= clamp_unit s <= 1) by (intros s; unfold clamp_unit; repeat destruct Rlt_dec; lra).
  assert (Ia : shared p0 p1 q0 q1 (pt p0 p1 (clamp_unit a))).
  { apply Hsh. split; [apply Hc|]. unfold clamp_unit. repeat destruct Rlt_dec; lra. }
  assert (Ib : shared p0 p1 q0 q1 (pt p0 p1 (clamp_unit b))).
  { apply Hsh. split; [apply Hc|]. unfold clamp_unit. repeat destruct Rlt_dec; lra. }
  assert (I0 : shared p0 p1 q0 q1 (pt q0 q1 (ct 0))).
  { rewrite Hq', Hct. apply Hsh. unfold Rmax, Rmin. repeat destruct Rle_dec; lra. }
  assert (I1 : shared p0 p1 q0 q1 (pt q0 q1 (ct 1))).
  { rewrite Hq', Hct. apply Hsh. unfold Rmax, Rmin. repeat destruct Rle_dec; lra. }
  assert (Hd0 : a < b → clamp_unit a = a + ct 0 * (b - a)).
  { intros. rewrite Hct. unfold Rmax, Rmin, clamp_unit. repeat destruct Rle_dec; repeat destruct Rlt_dec; lra. }
  assert (Hd1 : a < b → clamp_unit b = a + ct 1 * (b - a)).
  { intros. rewrite Hct. unfold Rmax, Rmin, clamp_unit. repeat destruct Rle_dec; repeat destruct Rlt_dec; lra. }
  assert (Hin : ∀ u, shared p0 p1 q0 q1 (pt p0 p1 u) →
     clamp_unit a <= u <= clamp_unit b ∨ clamp_unit b <= u <= clamp_unit a).
  { intros u Hu. apply Hsh in Hu. unfold clamp_unit. repeat destruct Rlt_dec; lra. }
  assert (Hlt : 0 < dot2 (sub2 p1 p0) (sub2 q1 q0) → a < b). { rewrite Hdir. nra. }
  eexists. split; [done|].
  destruct (rltb (Rabs (clamp_unit b - clamp_unit a)) eps) eqn:B.
  - apply rltb_true in B. split_and!.
    + intros s t Hs. apply elem_of_list_singleton in Hs. injection Hs as -> ->. done.
    + intros x Hx. destruct (Hx) as [(u & Hu & ->) _]. exists u. split; [done|]. right.
      eexists. split; [done|]. simpl. apply Hin in Hx.
      apply Rabs_def1; apply Rabs_def2 in B; lra.
    + intros Hl%Hlt s t Hs. apply elem_of_list_singleton in Hs. injection Hs as -> ->.
      rewrite Hq'. by rewrite Hd0.
  - split_and!.
    + intros s t Hs. apply elem_of_cons in Hs as [Hs|Hs%elem_of_list_singleton]; injection Hs as -> ->; done.
    + intros x Hx. destruct (Hx) as [(u & Hu & ->) _]. exists u. split; [done|]. left.
      apply Hin in Hx as [Hx|Hx].
      * exists (clamp_unit a, ct 0), (clamp_unit b, ct 1). split_and!; [left|right; left|..]; simpl; lra.
      * exists (clamp_unit b, ct 1), (clamp_unit a, ct 0). split_and!; [right; left|left|..]; simpl; lra.
    + intros Hl%Hlt s t Hs. apply elem_of_cons in Hs as [Hs|Hs%elem_of_list_singleton]; injection Hs as -> ->;
        rewrite Hq'; [by rewrite Hd0|by rewrite Hd1].
Qed.
