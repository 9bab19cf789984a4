(** Proofs about NearModel.v: the second pair of parallel segments, degenerate
    segments, discs and boxes. *)
From Verif Require Import Outcome BoxModel GeoModel RotSpec RotProofs NearModel NearSpec NearProofs.
From Coq Require Import Reals Lra Psatz.
Local Open Scope R_scope.

(** ** Parallel segments *)
Lemma parallel_scale (u v : v3) :
  0 < dot3 u u → lsq (cross3 u v) = 0 → v = scl (dot3 u v / dot3 u u) u.
Proof.
  intros Hu H. apply lsq_zero in H.
  assert (H' : cross3 (cross3 u v) u = vec0).
  { rewrite H. unfold cross3, vec0; simpl. f_equal; ring. }
  assert (∀ x y z : R, 0 < x → z * x = y → z = y / x) as D.
  { intros x y z Hx Hxy. subst y. field. lra. }
  destruct u as [ux0 uy0 uz0], v as [a b c].
  unfold cross3, vec0 in H'; simpl in H'. injection H' as H1 H2 H3.
  unfold dot3 in *; simpl in *. unfold scl; simpl.
  f_equal.
  - replace ((ux0 * a + uy0 * b + uz0 * c) / (ux0 * ux0 + uy0 * uy0 + uz0 * uz0) * ux0)
      with ((ux0 * a + uy0 * b + uz0 * c) * ux0 / (ux0 * ux0 + uy0 * uy0 + uz0 * uz0)) by (field; lra).
    apply D; [lra|nra].
  - replace ((ux0 * a + uy0 * b + uz0 * c) / (ux0 * ux0 + uy0 * uy0 + uz0 * uz0) * uy0)
      with ((ux0 * a + uy0 * b + uz0 * c) * uy0 / (ux0 * ux0 + uy0 * uy0 + uz0 * uz0)) by (field; lra).
    apply D; [lra|nra].
  - replace ((ux0 * a + uy0 * b + uz0 * c) / (ux0 * ux0 + uy0 * uy0 + uz0 * uz0) * uz0)
      with ((ux0 * a + uy0 * b + uz0 * c) * uz0 / (ux0 * ux0 + uy0 * uy0 + uz0 * uz0)) by (field; lra).
    apply D; [lra|nra].
Qed.

(** the squared distance of a pair of points of parallel lines *)
Lemma parallel_pair (p1 p2 d : v3) k s t :
  0 < dot3 d d →
  lsq (sub3 (add3 p1 (scl s d)) (add3 p2 (scl t (scl k d)))) =
  dot3 d d * (s - (- dot3 d (sub3 p1 p2) / dot3 d d) - k * t) ^ 2
  + (lsq (sub3 p1 p2) - dot3 d (sub3 p1 p2) * dot3 d (sub3 p1 p2) / dot3 d d).
Proof.
  intros H.
  transitivity (dot3 d d * (s - k * t) * (s - k * t) + 2 * (s - k * t) * dot3 d (sub3 p1 p2) + lsq (sub3 p1 p2)).
  - clear H. destruct p1, p2, d. unfold lsq, dot3, sub3, add3, scl; simpl. ring.
  - field. lra.
Qed.

Section second.
  Context (a x k : R).
  Hypothesis Ha : 0 < a.
  Hypothesis Hk : k ≠ 0.
  (** the parameters computed in the parallel case *)
  Let s := clamp_unit (Rmin x (x + k)).
  Let sp := clamp_unit (Rmax x (x + k)).
  Let tp := clamp_unit (Rmax (x / k) ((1 - x) / k)).
  Hypothesis Hne : s ≠ sp.

  Lemma div_lt_1 y : 0 < k → y < k → y / k < 1.
  Proof. intros H1 H2. apply Rmult_lt_reg_r with k; [done|]. unfold Rdiv. rewrite Rmult_assoc, Rinv_l by lra. lra. Qed.
  Lemma div_ge_1 y : 0 < k → k <= y → 1 <= y / k.
  Proof. intros H1 H2. apply Rmult_le_reg_r with k; [done|]. unfold Rdiv. rewrite Rmult_assoc, Rinv_l by lra. lra. Qed.

  Lemma second_good : ¬ (0 < k ∧ 1 / 2 < x ∧ 1 < x + k) → sp - x - k * tp = 0.
  Proof.
    intros Hn. destruct (Rlt_or_le 0 k) as [Hp|Hp].
    - assert (Rmin x (x + k) = x) as E1 by (apply Rmin_left; lra).
      assert (Rmax x (x + k) = x + k) as E2 by (apply Rmax_right; lra).
      assert (0 < / k) as Hi by (apply Rinv_0_lt_compat; done).
      unfold s, sp, tp in *. rewrite E1, E2 in *.
      assert (0 < x + k ∧ x < 1) as [P1 P2].
      { unfold clamp_unit in Hne. repeat destruct Rlt_dec; split; lra. }
      destruct (Rle_or_lt x (1 / 2)) as [Hx|Hx].
      + assert (Rmax (x / k) ((1 - x) / k) = (1 - x) / k) as ->.
        { apply Rmax_right. unfold Rdiv. apply Rmult_le_compat_r; lra. }
        destruct (Rle_or_lt (x + k) 1) as [Hxk|Hxk].
        * pose proof (div_ge_1 (1 - x) Hp ltac:(lra)). rewrite (clamp_in (x + k)) by lra.
          unfold clamp_unit. repeat destruct Rlt_dec; nra.
        * pose proof (div_lt_1 (1 - x) Hp ltac:(lra)).
          assert (0 < (1 - x) / k) by (apply Rmult_lt_0_compat; lra).
          rewrite (clamp_in ((1 - x) / k)) by lra. unfold clamp_unit. repeat destruct Rlt_dec; try lra.
          field. lra.
      + destruct (Rle_or_lt (x + k) 1) as [Hxk|Hxk]; [|exfalso; apply Hn; lra].
        pose proof (div_ge_1 (1 - x) Hp ltac:(lra)). pose proof (div_ge_1 x Hp ltac:(lra)).
        rewrite (clamp_in (x + k)) by lra.
        assert (1 <= Rmax (x / k) ((1 - x) / k)) by (eapply Rle_trans; [|apply Rmax_l]; done).
        unfold clamp_unit. repeat destruct Rlt_dec; nra.
    - assert (Hneg : k < 0) by lra. clear Hp.
      assert (Rmin x (x + k) = x + k) as E1 by (apply Rmin_right; lra).
      assert (Rmax x (x + k) = x) as E2 by (apply Rmax_left; lra).
      assert (/ k < 0) as Hi by (apply Rinv_lt_0_compat; done).
      unfold s, sp, tp in *. rewrite E1, E2 in *.
      assert (0 < x ∧ x + k < 1) as [P1 P2].
      { unfold clamp_unit in Hne. repeat destruct Rlt_dec; split; lra. }
      destruct (Rle_or_lt x 1) as [Hx|Hx].
      + assert (Rmax (x / k) ((1 - x) / k) <= 0).
        { apply Rmax_lub; unfold Rdiv; nra. }
        rewrite (clamp_in x) by lra. unfold clamp_unit. repeat destruct Rlt_dec; try lra.
        assert (Rmax (x / k) ((1 - x) / k) = 0) as -> by lra. lra.
      + assert (Rmax (x / k) ((1 - x) / k) = (1 - x) / k) as ->.
        { apply Rmax_right. unfold Rdiv. nra. }
        assert (0 < (1 - x) / k) by (unfold Rdiv; nra).
        assert ((1 - x) / k < 1).
        { replace 1 with (k / k) at 2 by (field; lra). unfold Rdiv. nra. }
        rewrite (clamp_in ((1 - x) / k)) by lra. unfold clamp_unit. repeat destruct Rlt_dec; try lra. field. lra.
  Qed.

  Lemma second_bad : 0 < k → 1 / 2 < x → 1 < x + k →
    sp - x - k * tp ≠ 0 ∧ (∃ t', 0 <= t' <= 1 ∧ 1 - x - k * t' = 0).
  Proof.
    intros Hp Hx Hxk.
    assert (Rmin x (x + k) = x) as E1 by (apply Rmin_left; lra).
    assert (Rmax x (x + k) = x + k) as E2 by (apply Rmax_right; lra).
    assert (0 < / k) as Hi by (apply Rinv_0_lt_compat; done).
    unfold s, sp, tp in *. rewrite E1, E2 in *.
    assert (x < 1) as P2.
    { unfold clamp_unit in Hne. repeat destruct Rlt_dec; lra. }
    assert (Rmax (x / k) ((1 - x) / k) = x / k) as ->.
    { apply Rmax_left. unfold Rdiv. apply Rmult_le_compat_r; lra. }
    assert (clamp_unit (x + k) = 1) as ->.
    { unfold clamp_unit. repeat destruct Rlt_dec; lra. }
    split.
    - assert (0 < x / k) by (apply Rmult_lt_0_compat; lra).
      unfold clamp_unit. repeat destruct Rlt_dec; try lra.
      replace (k * (x / k)) with x by (field; lra). lra.
    - exists ((1 - x) / k). pose proof (div_lt_1 (1 - x) Hp ltac:(lra)).
      assert (0 < (1 - x) / k) by (apply Rmult_lt_0_compat; lra). split; [lra|]. field. lra.
  Qed.
End second.

Lemma second_ok p1 q1 p2 q2 sp tp c1 c2 :
  eps < lsq (sub3 q1 p1) → eps < lsq (sub3 q2 p2) → lsq (cross3 (sub3 q1 p1) (sub3 q2 p2)) = 0 →
  ss_second (closest_point_segment_segment true p1 q1 p2 q2) = Some (sp, tp, c1, c2) →
  on_segment p1 q1 c1 ∧ on_segment p2 q2 c2 ∧
  c1 = add3 p1 (scl sp (sub3 q1 p1)) ∧ c2 = add3 p2 (scl tp (sub3 q2 p2)) ∧
  (nearest_pair (on_segment p1 q1) (on_segment p2 q2) c1 c2 ↔ ¬ late_overlap p1 q1 p2 q2).
Proof.
  intros Ha He Hz. pose proof eps_pos as Heps.
  assert (Hd2 := parallel_scale (sub3 q1 p1) (sub3 q2 p2) ltac:(unfold lsq in Ha; lra) Hz).
  assert (Hden : dot3 (sub3 q1 p1) (sub3 q1 p1) * dot3 (sub3 q2 p2) (sub3 q2 p2)
     - dot3 (sub3 q1 p1) (sub3 q2 p2) * dot3 (sub3 q1 p1) (sub3 q2 p2) = 0) by (rewrite <- lagrange; done).
  unfold closest_point_segment_segment. unfold lsq in Ha, He.
  assert (Ef1 : dot3 (sub3 q1 p1) (sub3 p1 q2) = dot3 (sub3 q1 p1) (sub3 p1 p2) - dot3 (sub3 q1 p1) (sub3 q2 p2)).
  { destruct p1, q1, p2, q2. unfold dot3, sub3; simpl. ring. }
  assert (Ef2 : dot3 (sub3 q2 p2) (sub3 p2 q1) = - dot3 (sub3 q2 p2) (sub3 p1 p2) - dot3 (sub3 q1 p1) (sub3 q2 p2)).
  { destruct p1, q1, p2, q2. unfold dot3, sub3; simpl. ring. }
  assert (El1 : dot3 (sub3 q1 p1) (sub3 p2 p1) = - dot3 (sub3 q1 p1) (sub3 p1 p2)).
  { destruct p1, q1, p2, q2. unfold dot3, sub3; simpl. ring. }
  assert (El2 : dot3 (sub3 q1 p1) (sub3 q2 p1) = dot3 (sub3 q1 p1) (sub3 q2 p2) - dot3 (sub3 q1 p1) (sub3 p1 p2)).
  { destruct p1, q1, p2, q2. unfold dot3, sub3; simpl. ring. }
  unfold late_overlap, lsq. cbv zeta. rewrite El1, El2, Ef1, Ef2. clear El1 El2 Ef1 Ef2 Hz.
  assert (Hon1 : ∀ s, 0 <= s <= 1 → on_segment p1 q1 (add3 p1 (scl s (sub3 q1 p1)))) by (intros; eexists; eauto).
  assert (Hon2 : ∀ s, 0 <= s <= 1 → on_segment p2 q2 (add3 p2 (scl s (sub3 q2 p2)))) by (intros; eexists; eauto).
  assert (Hinv1 : ∀ y, on_segment p1 q1 y → ∃ s, 0 <= s <= 1 ∧ y = add3 p1 (scl s (sub3 q1 p1))) by (intros y Hy; done).
  assert (Hinv2 : ∀ y, on_segment p2 q2 y → ∃ s, 0 <= s <= 1 ∧ y = add3 p2 (scl s (sub3 q2 p2))) by (intros y Hy; done).
  set (d1 := sub3 q1 p1) in *. set (d2 := sub3 q2 p2) in *. set (r := sub3 p1 p2) in *.
  set (k := dot3 d1 d2 / dot3 d1 d1) in *.
  assert (Eb : dot3 d1 d2 = k * dot3 d1 d1) by (unfold k; field; lra).
  assert (Ee : dot3 d2 d2 = k * k * dot3 d1 d1).
  { rewrite Hd2. destruct d1. unfold dot3, scl; simpl. ring. }
  assert (Ef : dot3 d2 r = k * dot3 d1 r).
  { rewrite Hd2 at 1. generalize k. intros. destruct d1, r. unfold dot3, scl; simpl. ring. }
  assert (HF := λ s t, parallel_pair p1 p2 d1 k s t ltac:(lra)). fold r in HF.
  set (a := dot3 d1 d1) in *. set (c := dot3 d1 r) in *. set (e := dot3 d2 d2) in *.
  set (x := - c / a) in *.
  assert (Hk : k ≠ 0) by (intros ->; lra).
  assert (Fa : rleb a eps = false).
  { unfold rleb. destruct Rle_dec; [lra|done]. }
  assert (Fe : rleb e eps = false).
  { unfold rleb. destruct Rle_dec; [lra|done]. }
  rewrite Fa, Fe. cbn [andb]. rewrite Hden. destruct (Rlt_dec eps 0) as [|_]; [lra|].
  replace (- c * (1 / a)) with x by (unfold x; field; lra).
  replace (- (c - dot3 d1 d2) * (1 / a)) with (x + k) by (unfold x; rewrite Eb; field; lra).
  replace (- dot3 d2 r * (1 / e)) with (x / k).
  2: { rewrite Ef, Ee. unfold x. field. split; [lra|done]. }
  replace (- (- dot3 d2 r - dot3 d1 d2) * (1 / e)) with ((1 - x) / k).
  2: { rewrite Ef, Ee, Eb. unfold x. field. split; [lra|done]. }
  destruct (rltb eps (Rabs _)) eqn:Es.
  2: { destruct (rltb _ 0); [|destruct (rltb e _)]; discriminate. }
  apply rltb_true in Es.
  assert (Hne : clamp_unit (Rmin x (x + k)) ≠ clamp_unit (Rmax x (x + k))).
  { intros E. rewrite E in Es. rewrite Rminus_diag_eq, Rabs_R0 in Es by done. lra. }
  set (S := clamp_unit (Rmax x (x + k))) in *. set (T := clamp_unit (Rmax (x / k) ((1 - x) / k))) in *.
  intros Hsec.
  assert (Heq : sp = S ∧ tp = T ∧ c1 = add3 p1 (scl S d1) ∧ c2 = add3 p2 (scl T d2)).
  { destruct (rltb _ 0); [|destruct (rltb e _)]; cbn [ss_second] in Hsec; injection Hsec as <- <- <- <-; auto. }
  clear Hsec. destruct Heq as (-> & -> & -> & ->).
  assert (BS : 0 <= S <= 1) by apply clamp_spec. assert (BT : 0 <= T <= 1) by apply clamp_spec.
  split; [auto|]. split; [auto|]. split; [done|]. split; [done|].
  rewrite <- Hd2 in HF.
  assert (Hlate : (0 < dot3 d1 d2 ∧ a < 2 * - c ∧ a < dot3 d1 d2 - c) ↔ (0 < k ∧ 1 / 2 < x ∧ 1 < x + k)).
  { rewrite Eb. assert (Ec : c = - x * a) by (unfold x; field; lra). rewrite Ec.
    clearbody k x a c. clear - Ha Heps. split; intros (A & B & C); split_and!; nra. }
  rewrite Hlate. split.
  - intros (_ & _ & Hmin) (A & B & C).
    destruct (second_bad x k Hk Hne A B C) as (Hnz & t' & Ht' & Hzero).
    specialize (Hmin _ _ (Hon1 1 ltac:(lra)) (Hon2 t' Ht')).
    unfold GeoModel.dist, len in Hmin. apply sqrt_le_0 in Hmin; [|apply lsq_nonneg..].
    rewrite !HF in Hmin. fold x in Hmin. rewrite Hzero in Hmin.
    assert (0 < (S - x - k * T) ^ 2) by (rewrite <- Rsqr_pow2; apply Rsqr_pos_lt; done).
    clearbody S T x a. clear - Hmin H Ha Heps. nra.
  - intros Hn. pose proof (second_good x k Hk Hne Hn) as Hz. fold S T in Hz.
    split; [auto|]. split; [auto|]. intros x' y' Hx Hy.
    destruct (Hinv1 _ Hx) as (s' & Hs' & ->). destruct (Hinv2 _ Hy) as (t' & Ht' & ->).
    apply dist_le. rewrite !HF. fold x. rewrite Hz.
    pose proof (pow2_ge_0 (s' - x - k * t')). clearbody x a. clear - H Ha Heps. nra.
Qed.

(** ** Degenerate segments *)
Lemma lsq_self (p : v3) : lsq (sub3 p p) = 0.
Proof. destruct p. unfold lsq, dot3, sub3; simpl. ring. Qed.
Lemma self_zero (p : v3) : sub3 p p = vec0.
Proof. destruct p. unfold sub3, vec0; simpl. f_equal; ring. Qed.
Lemma zero_dot (v : v3) : dot3 vec0 v = 0 ∧ dot3 v vec0 = 0.
Proof. destruct v. unfold dot3, vec0; simpl. split; ring. Qed.

Lemma scl_0 (v : v3) : scl 0 v = vec0.
Proof. destruct v. unfold scl, vec0; simpl. f_equal; ring. Qed.
Lemma add_0 (v : v3) : add3 v vec0 = v.
Proof. destruct v. unfold add3, vec0; simpl. f_equal; ring. Qed.

Lemma seg_clear_ok two p1 q1 p2 q2 :
  seg_clear p1 q1 p2 q2 →
  let r := closest_point_segment_segment two p1 q1 p2 q2 in
  0 <= ss_s r <= 1 ∧ 0 <= ss_t r <= 1 ∧
  ss_c1 r = add3 p1 (scl (ss_s r) (sub3 q1 p1)) ∧ ss_c2 r = add3 p2 (scl (ss_t r) (sub3 q2 p2)) ∧
  ss_dist r = lsq (sub3 (ss_c1 r) (ss_c2 r)) ∧
  nearest_pair (on_segment p1 q1) (on_segment p2 q2) (ss_c1 r) (ss_c2 r).
Proof.
  intros (H1 & H2 & H3). pose proof eps_pos as Heps.
  assert (F0 : rleb 0 eps = true).
  { unfold rleb. destruct Rle_dec; [done|lra]. }
  destruct H1 as [<-|H1].
  - destruct H2 as [<-|H2].
    + cbv zeta. unfold closest_point_segment_segment.
      rewrite !self_zero. destruct (zero_dot vec0) as [Z _]. rewrite Z, F0. cbn [andb ss_s ss_t ss_c1 ss_c2 ss_dist].
      assert (E : ∀ p : v3, p = add3 p (scl 0 vec0)) by (intros; rewrite scl_0, add_0; done).
      split; [lra|]. split; [lra|]. split; [apply E|]. split; [apply E|]. split; [done|].
      pose proof (seg_pair p1 p1 p2 p2 0 0 ltac:(lra) ltac:(lra)) as HP.
      rewrite !self_zero, <- !E in HP. apply HP; intros s' _; rewrite ?Z; destruct (zero_dot (sub3 p1 p2)) as [-> _]; lra.
    + cbv zeta. unfold closest_point_segment_segment. unfold lsq in H2. rewrite !self_zero.
      destruct (zero_dot vec0) as [Z _]. rewrite Z, F0. cbn [andb].
      assert (Fe : rleb (dot3 (sub3 q2 p2) (sub3 q2 p2)) eps = false).
      { unfold rleb. destruct Rle_dec; [lra|done]. }
      rewrite Fe. cbn [ss_s ss_t ss_c1 ss_c2 ss_dist].
      set (e := dot3 (sub3 q2 p2) (sub3 q2 p2)) in *. set (f := dot3 (sub3 q2 p2) (sub3 p1 p2)).
      destruct (clamp_spec (f / e)) as [B _].
      split; [lra|]. split; [done|]. split; [done|]. split; [done|]. split; [done|].
      pose proof (seg_pair p1 p1 p2 q2 0 (clamp_unit (f / e)) ltac:(lra) B) as HP.
      rewrite !self_zero in HP. apply HP.
      * intros s' _. destruct (zero_dot (sub3 p1 p2)) as [-> _]. destruct (zero_dot (sub3 q2 p2)) as [-> _]. lra.
      * pose proof (slope_clamp e (- f) ltac:(lra)) as S. replace (- - f / e) with (f / e) in S by (field; lra).
        intros s' Hs. specialize (S s' Hs). fold e f. destruct (zero_dot (sub3 q2 p2)) as [-> _].
        eapply Rle_trans; [apply S|]. apply Req_le. ring.
  - destruct H2 as [<-|H2]; [|apply seg_seg_ok; split_and!; auto].
    cbv zeta. unfold closest_point_segment_segment. unfold lsq in H1. rewrite !self_zero.
    destruct (zero_dot vec0) as [Z _]. rewrite Z, F0.
    assert (Fa : rleb (dot3 (sub3 q1 p1) (sub3 q1 p1)) eps = false).
    { unfold rleb. destruct Rle_dec; [lra|done]. }
    rewrite Fa. cbn [andb ss_s ss_t ss_c1 ss_c2 ss_dist].
    set (a := dot3 (sub3 q1 p1) (sub3 q1 p1)) in *. set (c := dot3 (sub3 q1 p1) (sub3 p1 p2)).
    destruct (clamp_spec (- c / a)) as [B _].
    split; [done|]. split; [lra|]. split; [done|]. split; [done|]. split; [done|].
    pose proof (seg_pair p1 q1 p2 p2 (clamp_unit (- c / a)) 0 B ltac:(lra)) as HP.
    rewrite !self_zero in HP. apply HP.
    + pose proof (slope_clamp a c ltac:(lra)) as S.
      intros s' Hs. specialize (S s' Hs). fold a c. destruct (zero_dot (sub3 q1 p1)) as [_ ->].
      eapply Rle_trans; [apply S|]. apply Req_le. ring.
    + intros s' _. rewrite Z. destruct (zero_dot (sub3 p1 p2)) as [-> _]. destruct (zero_dot (sub3 q1 p1)) as [_ ->]. lra.
Qed.

(** ** Discs *)
Lemma pyth (p c n x : v3) :
  dot3 n n = 1 → dot3 (sub3 x c) n = 0 →
  lsq (sub3 p x) = dot3 (sub3 p c) n * dot3 (sub3 p c) n
    + lsq (sub3 (sub3 p (scl (dot3 (sub3 p c) n) n)) x).
Proof.
  intros Hn Hx.
  transitivity (dot3 (sub3 p c) n * dot3 (sub3 p c) n
    + lsq (sub3 (sub3 p (scl (dot3 (sub3 p c) n) n)) x)
    + (dot3 (sub3 p c) n * dot3 (sub3 p c) n * (1 - dot3 n n) - 2 * dot3 (sub3 p c) n * dot3 (sub3 x c) n)).
  - clear Hn Hx. destruct p, c, n, x. unfold lsq, dot3, sub3, scl; simpl. ring.
  - rewrite Hn, Hx. ring.
Qed.
Lemma disc_ok dpos dorn radius ax p d q :
  qlsq dorn = 1 → 0 < radius →
  closest_point_disc dpos dorn radius ax p = Ok (d, q) →
  d = lsq (sub3 p q) ∧ nearest (on_disc dpos (axis_vec_q ax dorn) radius) p q.
Proof.
  intros Hu Hr. unfold closest_point_disc.
  assert (Hn : dot3 (axis_vec_q ax dorn) (axis_vec_q ax dorn) = 1).
  { unfold axis_vec_q. rewrite rotate_dot by done. destruct ax; unfold dot3, axis_vec, ex, ey, ez; simpl; ring. }
  set (n := axis_vec_q ax dorn) in *. set (ln := dot3 (sub3 p dpos) n).
  set (pp := sub3 p (scl ln n)).
  assert (Hpp : dot3 (sub3 pp dpos) n = 0).
  { transitivity (ln * (1 - dot3 n n)); [|rewrite Hn; ring]. unfold pp, ln.
    destruct p, dpos, n. unfold dot3, sub3, scl; simpl. ring. }
  assert (Hp0 : lsq (sub3 p pp) = ln * ln).
  { transitivity (ln * ln * dot3 n n); [|rewrite Hn; ring]. unfold pp. generalize ln. intros.
    destruct p, n. unfold lsq, dot3, sub3, scl; simpl. ring. }
  destruct (rltb (lsq (sub3 pp dpos)) (radius * radius)) eqn:E.
  - apply rltb_true in E. intros [= <- <-]. split; [done|]. split.
    + split; [done|]. apply dist_le_r; lra.
    + intros x (Hx & _). apply dist_le. rewrite Hp0, (pyth p dpos n x Hn Hx). fold ln.
      pose proof (lsq_nonneg (sub3 (sub3 p (scl ln n)) x)). lra.
  - apply rltb_false in E. set (l := sqrt (lsq (sub3 pp dpos))). destruct Req_EM_T as [|Hl]; [discriminate|].
    set (d3 := sub3 pp dpos) in *.
    assert (Hl0 : 0 <= l) by apply sqrt_pos.
    assert (Hll : l * l = lsq d3) by (apply sqrt_sqrt, lsq_nonneg).
    set (q' := add3 dpos (scl radius (div3 d3 l))). intros [= <- <-]. split; [done|].
    assert (Hq1 : dot3 (sub3 q' dpos) n = 0).
    { transitivity (radius / l * dot3 d3 n); [|rewrite Hpp; ring].
      unfold q'. destruct dpos, d3, n. unfold dot3, sub3, scl, div3, add3; simpl. field. done. }
    assert (Hq2 : lsq (sub3 q' dpos) = radius * radius).
    { transitivity (radius * radius / (l * l) * lsq d3); [|rewrite <- Hll; field; done].
      unfold q'. destruct dpos, d3. unfold lsq, dot3, sub3, scl, div3, add3; simpl. field. done. }
    split.
    + split; [done|]. apply dist_le_r; lra.
    + intros x (Hx & Hxr). apply dist_le_r in Hxr; [|lra]. apply dist_le.
      rewrite (pyth p dpos n q' Hn Hq1), (pyth p dpos n x Hn Hx). fold ln pp.
      apply Rplus_le_compat_l.
      assert (E1 : lsq (sub3 pp q') = (l - radius) * (l - radius)).
      { transitivity ((1 - radius / l) * (1 - radius / l) * lsq d3); [|rewrite <- Hll; field; done].
        unfold q', d3. destruct pp, dpos. unfold lsq, dot3, sub3, scl, div3, add3; simpl. field. done. }
      rewrite E1.
      assert (E2 : lsq (sub3 pp x) = l * l - 2 * dot3 d3 (sub3 x dpos) + lsq (sub3 x dpos)).
      { rewrite Hll. unfold d3. destruct pp, dpos, x. unfold lsq, dot3, sub3; simpl. ring. }
      rewrite E2.
      set (v := sub3 x dpos) in *.
      pose proof (lagrange d3 v) as L. pose proof (lsq_nonneg (cross3 d3 v)) as Ln. rewrite L in Ln.
      fold (lsq d3) in Ln. fold (lsq v) in Ln. rewrite <- Hll in Ln.
      assert (Hv0 := lsq_nonneg v).
      assert (Hm : len v * len v = lsq v) by apply len_sq. pose proof (len_nonneg v) as Hm0.
      set (m := len v) in *. rewrite <- Hm in *. clear Hm.
      assert (Hml : m <= radius) by nra.
      assert (Hrl : radius <= l) by nra.
      assert (dot3 d3 v <= l * m).
      { apply Rnot_lt_le. intros Hc. assert (0 <= l * m) by nra.
        assert ((l * m) * (l * m) < dot3 d3 v * dot3 d3 v) by nra. lra. }
      assert (0 <= (l - radius) ) by lra. assert (l - radius <= l - m) by lra.
      assert ((l - radius) * (l - radius) <= (l - m) * (l - m)) by nra. lra.
Qed.

(** ** Boxes *)
Lemma clamp_near h x y : 0 <= h → - h <= y <= h →
  - h <= Rmax (- h) (Rmin h x) <= h ∧ (x - Rmax (- h) (Rmin h x)) ^ 2 <= (x - y) ^ 2.
Proof.
  intros Hh Hy. set (r := Rmax (- h) (Rmin h x)).
  assert (- h <= r <= h ∧ Rabs (x - r) <= Rabs (x - y)) as [B D].
  { unfold r, Rmax, Rmin, Rabs. repeat destruct Rle_dec; repeat destruct Rcase_abs; split; lra. }
  split; [done|]. rewrite <- (pow2_abs (x - r)), <- (pow2_abs (x - y)).
  pose proof (Rabs_pos (x - r)). nra.
Qed.
Lemma lsq_coords (p x : v3) : lsq (sub3 p x) = (vx p - vx x) ^ 2 + (vy p - vy x) ^ 2 + (vz p - vz x) ^ 2.
Proof. destruct p, x. unfold lsq, dot3, sub3; simpl. ring. Qed.
Lemma outside_ok h p :
  0 <= vx h → 0 <= vy h → 0 <= vz h → nearest (in_box h) p (closest_point_box_outside h p).
Proof.
  intros H1 H2 H3. split.
  - unfold in_box, closest_point_box_outside; simpl.
    split_and!; apply (clamp_near _ _ 0); lra.
  - intros x (X & Y & Z). apply dist_le. rewrite !lsq_coords. unfold closest_point_box_outside; simpl vx; simpl vy; simpl vz.
    destruct (clamp_near (vx h) (vx p) (vx x) H1 X) as [_ A]. destruct (clamp_near (vy h) (vy p) (vy x) H2 Y) as [_ B].
    destruct (clamp_near (vz h) (vz p) (vz x) H3 Z) as [_ C]. lra.
Qed.
Lemma outside_inside h p : in_box h p → closest_point_box_outside h p = p.
Proof.
  intros (X & Y & Z). destruct p. unfold closest_point_box_outside; simpl in *.
  rewrite !Rmin_right, !Rmax_right by (rewrite ?Rmin_right; lra). done.
Qed.

(** the running minimum: the point is at the distance, along the normal *)
Definition bi_inv (h p : v3) (acc : R * v3 * v3) : Prop :=
  let '(m, c, n) := acc in
  0 <= m ∧ on_box h c ∧ unit3 n ∧ c = add3 p (scl m n) ∧ dot3 c n = dot3 (V3 (vx h) (vy h) (vz h)) (V3 (Rabs (vx n)) (Rabs (vy n)) (Rabs (vz n))).
Lemma bi_step_ok h p acc m c n :
  bi_inv h p acc → bi_inv h p (m, c, n) →
  bi_inv h p (bi_step m c n acc) ∧ fst (fst (bi_step m c n acc)) = Rmin (fst (fst acc)) m.
Proof.
  intros Ha Hm. unfold bi_step. destruct acc as [[m' c'] n']. cbn [fst].
  destruct (rltb m m') eqn:E; [apply rltb_true in E|apply rltb_false in E]; cbn [fst]; split; auto.
  - rewrite Rmin_right; lra.
  - rewrite Rmin_left; lra.
Qed.
Lemma inside_ok h p d c n :
  closest_point_box_inside h p = Ok (d, c, n) →
  in_box h p ∧ nearest (on_box h) p c ∧ unit3 n ∧ c = add3 p (scl (GeoModel.dist p c) n) ∧
  d = vz h + vz p ∧ (∀ x, in_box h x → dot3 (sub3 x c) n <= 0).
Proof.
  unfold closest_point_box_inside, assert_. destruct (_ && _) eqn:E; [|discriminate]. simpl mbind. cbn [mbind res_bind].
  repeat (apply andb_prop in E; destruct E as [E ?]). repeat match goal with H : _ && _ = true |- _ => apply andb_prop in H; destruct H end.
  repeat match goal with H : rleb _ _ = true |- _ => apply rleb_true in H end.
  assert (Hin : in_box h p) by (unfold in_box; split_and!; lra).
  destruct h as [hx hy hz], p as [px py pz]. cbn [vx vy vz] in *.
  set (A1 := (hx - px, V3 hx py pz, V3 1 0 0)).
  assert (I1 : bi_inv (V3 hx hy hz) (V3 px py pz) A1).
  { unfold A1, bi_inv, on_box, in_box, unit3, dot3, add3, scl; cbn [vx vy vz]. rewrite Rabs_R0, Rabs_R1, (Rabs_right hx) by lra.
    split_and!; try lra; try (left; lra); f_equal; ring. }
  pose proof (bi_step_ok (V3 hx hy hz) (V3 px py pz) A1 (hx + px) (V3 (- hx) py pz) (V3 (-1) 0 0) I1) as S1.
  set (A2 := bi_step (hx + px) (V3 (- hx) py pz) (V3 (-1) 0 0) A1) in *.
  assert (RA : ∀ x, x <= 0 → Rabs x = - x) by (intros; apply Rabs_left1; lra).
  assert (RB : ∀ x, 0 <= x → Rabs x = x) by (intros; apply Rabs_pos_eq; lra).
  assert (hx >= 0 ∧ hy >= 0 ∧ hz >= 0) as (X0 & Y0 & Z0) by lra.
  destruct S1 as [I2 M2].
  { unfold bi_inv, on_box, in_box, unit3, dot3, add3, scl; cbn [vx vy vz]. rewrite Rabs_R0, (RA (-1)), (RA (- hx)) by lra.
    split_and!; try lra; try (left; lra); f_equal; ring. }
  pose proof (bi_step_ok (V3 hx hy hz) (V3 px py pz) A2 (hy - py) (V3 px hy pz) (V3 0 1 0) I2) as S1.
  set (A3 := bi_step (hy - py) (V3 px hy pz) (V3 0 1 0) A2) in *. destruct S1 as [I3 M3].
  { unfold bi_inv, on_box, in_box, unit3, dot3, add3, scl; cbn [vx vy vz]. rewrite Rabs_R0, Rabs_R1, (RB hy) by lra.
    split_and!; try lra; try (right; left; lra); f_equal; ring. }
  pose proof (bi_step_ok (V3 hx hy hz) (V3 px py pz) A3 (hy + py) (V3 px (- hy) pz) (V3 0 (-1) 0) I3) as S1.
  set (A4 := bi_step (hy + py) (V3 px (- hy) pz) (V3 0 (-1) 0) A3) in *. destruct S1 as [I4 M4].
  { unfold bi_inv, on_box, in_box, unit3, dot3, add3, scl; cbn [vx vy vz]. rewrite Rabs_R0, (RA (-1)), (RA (- hy)) by lra.
    split_and!; try lra; try (right; left; lra); f_equal; ring. }
  pose proof (bi_step_ok (V3 hx hy hz) (V3 px py pz) A4 (hz - pz) (V3 px py hz) (V3 0 0 1) I4) as S1.
  set (A5 := bi_step (hz - pz) (V3 px py hz) (V3 0 0 1) A4) in *. destruct S1 as [I5 M5].
  { unfold bi_inv, on_box, in_box, unit3, dot3, add3, scl; cbn [vx vy vz]. rewrite Rabs_R0, Rabs_R1, (RB hz) by lra.
    split_and!; try lra; try (right; right; lra); f_equal; ring. }
  pose proof (bi_step_ok (V3 hx hy hz) (V3 px py pz) A5 (hz + pz) (V3 px py (- hz)) (V3 0 0 (-1)) I5) as S1.
  set (A6 := bi_step (hz + pz) (V3 px py (- hz)) (V3 0 0 (-1)) A5) in *. destruct S1 as [I6 M6].
  { unfold bi_inv, on_box, in_box, unit3, dot3, add3, scl; cbn [vx vy vz]. rewrite Rabs_R0, (RA (-1)), (RA (- hz)) by lra.
    split_and!; try lra; try (right; right; lra); f_equal; ring. }
  intros [= <- <- <-]. rewrite M5, M4, M3, M2 in M6. clearbody A6. clear I1 I2 I3 I4 I5 M2 M3 M4 M5.
  clear A2 A3 A4 A5. unfold A1 in M6. cbn [fst] in M6. clear A1. destruct A6 as [[m c] n]. cbn [fst snd] in *.
  destruct I6 as (Hm & Hc & Hn & Ec & Hd).
  assert (Hdc : lsq (sub3 (V3 px py pz) c) = m * m).
  { rewrite Ec. transitivity (m * m * dot3 n n); [|rewrite Hn; ring].
    destruct n. unfold lsq, dot3, sub3, add3, scl; simpl. ring. }
  assert (Hdist : GeoModel.dist (V3 px py pz) c = m).
  { unfold GeoModel.dist, len. rewrite Hdc. apply sqrt_square. done. }
  split; [done|]. split; [|split; [done|split; [rewrite Hdist; done|split; [done|]]]].
  - split; [done|]. intros x (Hb & Hf). rewrite Hdist.
    assert (Hlow : m <= hx - px ∧ m <= hx + px ∧ m <= hy - py ∧ m <= hy + py ∧ m <= hz - pz ∧ m <= hz + pz).
    { rewrite M6. unfold Rmin. repeat destruct Rle_dec; lra. }
    unfold GeoModel.dist, len. rewrite <- (sqrt_square m) by lra. apply sqrt_le_1; [nra|apply lsq_nonneg|].
    rewrite lsq_coords. destruct x as [x y z]. cbn [vx vy vz] in *. destruct Hb as (B1 & B2 & B3). cbn [vx vy vz] in *.
    assert (∀ u v w, m <= Rabs u → 0 <= v → 0 <= w → m * m <= u ^ 2 + v + w) as K.
    { intros u v w Hu Hv Hw. rewrite <- (pow2_abs u). nra. }
    pose proof (pow2_ge_0 (px - x)). pose proof (pow2_ge_0 (py - y)). pose proof (pow2_ge_0 (pz - z)).
    destruct Hf as [F|[F|F]].
    + assert (m <= Rabs (px - x)) by (unfold Rabs in *; repeat destruct Rcase_abs; lra).
      pose proof (K (px - x) ((py - y) ^ 2) ((pz - z) ^ 2)). lra.
    + assert (m <= Rabs (py - y)) by (unfold Rabs in *; repeat destruct Rcase_abs; lra).
      pose proof (K (py - y) ((px - x) ^ 2) ((pz - z) ^ 2)). lra.
    + assert (m <= Rabs (pz - z)) by (unfold Rabs in *; repeat destruct Rcase_abs; lra).
      pose proof (K (pz - z) ((py - y) ^ 2) ((px - x) ^ 2)). lra.
  - intros x (B1 & B2 & B3).
    assert (dot3 (sub3 x c) n = dot3 x n - dot3 c n) as -> by (destruct x, c, n; unfold dot3, sub3; simpl; ring).
    rewrite Hd. unfold dot3. cbn [vx vy vz] in *.
    assert (∀ u h v, - h <= u <= h → u * v <= h * Rabs v) as K.
    { intros u h v Hu. unfold Rabs. destruct Rcase_abs; nra. }
    pose proof (K (vx x) hx (vx n) B1). pose proof (K (vy x) hy (vy n) B2). pose proof (K (vz x) hz (vz n) B3). lra.
Qed.
