(** Angles followed over turns, cones, position corrections. *)
From Verif Require Import Outcome BoxModel GeoModel RotSpec RotProofs RotProofs3 SupProofs JacModel JacSpec.
From Verif Require Import JacProofs JacProofs2.
From Verif Require RowModel JointModel.
From Coq Require Import Reals Lra Psatz.
Local Open Scope R_scope.

(** * Angles *)
Lemma trunc_spec x : ∃ k : Z, trunc x = IZR k ∧ Rabs (x - trunc x) < 1 ∧ 0 <= x * (x - trunc x).
Proof.
  unfold trunc. destruct (Rlt_dec x 0) as [H|H].
  - exists (- Int_part (- x))%Z. rewrite opp_IZR. destruct (base_Int_part (- x)) as [H1 H2].
    repeat split; [split_Rabs; lra|].
    assert (x - - IZR (Int_part (- x)) <= 0) by lra. nra.
  - exists (Int_part x). destruct (base_Int_part x) as [H1 H2].
    repeat split; [split_Rabs; lra|]. assert (0 <= x - IZR (Int_part x)) by lra. nra.
Qed.
Lemma normalize_spec s : same_angle (normalize_angle s) s ∧ Rabs (normalize_angle s) <= PI.
Proof.
  pose proof PI_RGT_0 as Hpi.
  destruct (trunc_spec (s / (2 * PI))) as (k & Hk & Hlt & _).
  assert (E : fmod s (2 * PI) = (s / (2 * PI) - trunc (s / (2 * PI))) * (2 * PI)).
  { unfold fmod. field. lra. }
  assert (Hb : Rabs (fmod s (2 * PI)) < 2 * PI).
  { rewrite E, Rabs_mult, (Rabs_pos_eq (2 * PI)) by lra. nra. }
  assert (Hs : fmod s (2 * PI) = s + 2 * PI * IZR (- k)).
  { unfold fmod. rewrite Hk, opp_IZR. ring. }
  unfold normalize_angle. cbv zeta.
  destruct (Rlt_dec _ (- PI)) as [H|H]; [|destruct (Rlt_dec PI _) as [H'|H']].
  - split; [exists (- k + 1)%Z; rewrite Hs, plus_IZR; ring|]. split_Rabs; lra.
  - split; [exists (- k - 1)%Z; rewrite Hs, minus_IZR; ring|]. split_Rabs; lra.
  - split; [by exists (- k)%Z|]. split_Rabs; lra.
Qed.
Lemma delta_spec previous current :
  Rabs current <= PI →
  same_angle (previous + angle_delta previous current) current ∧ Rabs (angle_delta previous current) <= PI.
Proof.
  intros Hc. pose proof PI_RGT_0 as Hpi. destruct (normalize_spec previous) as [(k & Hk) Hn].
  unfold angle_delta. cbv zeta.
  set (d0 := current - normalize_angle previous).
  assert (Hd0 : Rabs d0 <= 2 * PI) by (subst d0; split_Rabs; lra).
  assert (S0 : previous + d0 = current + 2 * PI * IZR (- k)).
  { subst d0. rewrite Hk, opp_IZR. ring. }
  clearbody d0.
  destruct (Rlt_dec d0 0) as [H|H].
  - replace (d0 + 2 * PI * 1) with (d0 + 2 * PI) by ring.
    destruct (Rlt_dec (Rabs d0) (Rabs (d0 + 2 * PI))) as [H1|H1].
    + split; [by exists (- k)%Z|]. split_Rabs; lra.
    + split; [exists (- k + 1)%Z; rewrite plus_IZR; lra|]. split_Rabs; lra.
  - replace (d0 + 2 * PI * -1) with (d0 - 2 * PI) by ring.
    destruct (Rlt_dec (Rabs d0) (Rabs (d0 - 2 * PI))) as [H1|H1].
    + split; [by exists (- k)%Z|]. split_Rabs; lra.
    + split; [exists (- k - 1)%Z; rewrite minus_IZR; lra|]. split_Rabs; lra.
Qed.
Lemma tracked_exact (measured true_angle : nat → R) :
  (∀ n, Rabs (measured n) <= PI) →
  (∀ n, same_angle (measured n) (true_angle (S n))) →
  (∀ n, Rabs (true_angle (S n) - true_angle n) < PI) →
  ∀ n, tracked measured (true_angle 0%nat) n = true_angle n.
Proof.
  intros Hm Hs Ht n. pose proof PI_RGT_0 as Hpi. induction n as [|n IH]; [done|].
  cbn [tracked]. rewrite IH. unfold track_angle.
  destruct (delta_spec (true_angle n) (measured n) (Hm n)) as [(k & Hk) Hd].
  destruct (Hs n) as (l & Hl). specialize (Ht n).
  assert (E : true_angle n + angle_delta (true_angle n) (measured n) = true_angle (S n) + 2 * PI * IZR (l + k)).
  { rewrite Hk, Hl, plus_IZR. ring. }
  assert (Hz : (l + k)%Z = 0%Z).
  { assert (Rabs (2 * PI * IZR (l + k)) < 2 * PI).
    { replace (2 * PI * IZR (l + k)) with
        (angle_delta (true_angle n) (measured n) - (true_angle (S n) - true_angle n)) by lra.
      split_Rabs; lra. }
    rewrite Rabs_mult, (Rabs_pos_eq (2 * PI)) in H by lra.
    assert (Rabs (IZR (l + k)) < 1) by nra.
    assert (-1 < (l + k))%Z by (apply lt_IZR; split_Rabs; lra).
    assert ((l + k) < 1)%Z by (apply lt_IZR; split_Rabs; lra). lia. }
  rewrite E, Hz. ring.
Qed.

Lemma atan2_range y x : Rabs (atan2 y x) <= PI.
Proof.
  pose proof PI_RGT_0 as Hpi. unfold atan2.
  pose proof (atan_bound (y / x)) as [H1 H2].
  destruct (Rlt_dec 0 x); [split_Rabs; lra|].
  destruct (Rlt_dec x 0) as [Hx|].
  - destruct (Rle_dec 0 y) as [Hy|Hy].
    + assert (atan (y / x) <= 0).
      { destruct (Rle_lt_or_eq_dec 0 y Hy) as [Hy'|<-].
        - rewrite <- atan_0. left. apply atan_increasing. apply Rmult_lt_reg_r with (- x); [lra|].
          replace (y / x * - x) with (- y) by (field; lra). lra.
        - replace (0 / x) with 0 by (field; lra). rewrite atan_0. lra. }
      split_Rabs; lra.
    + assert (0 < atan (y / x)).
      { rewrite <- atan_0. apply atan_increasing. apply Rmult_lt_reg_r with (- x); [lra|].
        replace (y / x * - x) with (- y) by (field; lra). lra. }
      split_Rabs; lra.
  - destruct (Rlt_dec 0 y); [split_Rabs; lra|]. destruct (Rlt_dec y 0); split_Rabs; lra.
Qed.

(** * Cones *)
Definition cone_s (t0 t1 : R) (p : v3) : R :=
  sqrt (vy p / t0 * (vy p / t0) + vz p / t1 * (vz p / t1)).
Definition cone_grad (t0 t1 : R) (p : v3) : v3 :=
  V3 (-1) (vy p / (t0 * t0) / cone_s t0 t1 p) (vz p / (t1 * t1) / cone_s t0 t1 p).
Lemma cone_grad_ok t0 t1 p :
  t0 ≠ 0 → t1 ≠ 0 → 0 < vy p / t0 * (vy p / t0) + vz p / t1 * (vz p / t1) →
  is_gradient (outside_cone t0 t1) p (cone_grad t0 t1 p).
Proof.
  intros H0 H1 Hp d. unfold outside_cone. cbn [add3 scl vx vy vz].
  set (u := vy p / t0) in *. set (v := vz p / t1) in *.
  assert (Hs : 0 < sqrt (u * u + v * v)) by by apply sqrt_lt_R0.
  assert (Hin : derivable_pt_lim (λ h, (vy p + h * vy d) / t0 * ((vy p + h * vy d) / t0)
                                     + (vz p + h * vz d) / t1 * ((vz p + h * vz d) / t1)) 0
                 (2 * u * (vy d / t0) + 2 * v * (vz d / t1))).
  { assert (L : ∀ a b c, derivable_pt_lim (λ h, (a + h * b) / c) 0 (b / c)).
    { intros a b c.
      eapply (dlim_ext (λ h, a / c + (b / c) * h)). { intros h. unfold Rdiv. ring. }
      eapply dlim_eq.
      - apply (derivable_pt_lim_plus (λ _, a / c) (λ h, b / c * h)).
        + apply derivable_pt_lim_const.
        + apply (derivable_pt_lim_scal id (b / c) 0 1). apply derivable_pt_lim_id.
      - ring. }
    eapply dlim_eq.
    - apply (derivable_pt_lim_plus (λ h, (vy p + h * vy d) / t0 * ((vy p + h * vy d) / t0))
               (λ h, (vz p + h * vz d) / t1 * ((vz p + h * vz d) / t1))).
      + apply (derivable_pt_lim_mult (λ h, (vy p + h * vy d) / t0) (λ h, (vy p + h * vy d) / t0)); apply L.
      + apply (derivable_pt_lim_mult (λ h, (vz p + h * vz d) / t1) (λ h, (vz p + h * vz d) / t1)); apply L.
    - cbv beta. subst u v. field. split; lra. }
  eapply dlim_eq.
  - apply (derivable_pt_lim_minus
      (λ h, sqrt ((vy p + h * vy d) / t0 * ((vy p + h * vy d) / t0)
                  + (vz p + h * vz d) / t1 * ((vz p + h * vz d) / t1))) (λ h, vx p + h * vx d)).
    + apply (derivable_pt_lim_comp (λ h, (vy p + h * vy d) / t0 * ((vy p + h * vy d) / t0)
                  + (vz p + h * vz d) / t1 * ((vz p + h * vz d) / t1)) sqrt); [exact Hin|].
      apply derivable_pt_lim_sqrt.
      replace ((vy p + 0 * vy d) / t0) with u by (subst u; f_equal; ring).
      replace ((vz p + 0 * vz d) / t1) with v by (subst v; f_equal; ring). done.
    + eapply dlim_eq.
      * apply (derivable_pt_lim_plus (λ _, vx p) (λ h, h * vx d)); [apply derivable_pt_lim_const|].
        apply (dlim_ext (λ h, vx d * h)); [intros; ring|].
        apply (derivable_pt_lim_scal id (vx d) 0 1). apply derivable_pt_lim_id.
      * reflexivity.
  - cbv beta.
    replace ((vy p + 0 * vy d) / t0) with u by (subst u; f_equal; ring).
    replace ((vz p + 0 * vz d) / t1) with v by (subst v; f_equal; ring).
    unfold cone_grad, cone_s, dot3. cbn [vx vy vz]. fold u v.
    subst u v. field. repeat split; lra.
Qed.

Lemma normalize3_ok v n : normalize3 v = Ok n → 0 < len v ∧ n = scl (/ len v) v.
Proof.
  unfold normalize3. intros H. apply bind_ok in H as (? & Ha & H). injection H as <-.
  unfold assert_ in Ha. pose proof tiny_pos. pose proof (rltb_true tiny (len v)).
  destruct (rltb tiny (len v)); [|done]. assert (tiny < len v) by tauto.
  split; [lra|]. apply div3_scl.
Qed.
Lemma len_scl k v : 0 <= k → len (scl k v) = k * len v.
Proof.
  intros Hk. unfold len. replace (lsq (scl k v)) with (k * k * lsq v).
  2:{ unfold lsq, dot3, scl. cbn [vx vy vz]. ring. }
  rewrite sqrt_mult; [|nra|apply lsq_nonneg]. f_equal. by apply sqrt_square.
Qed.

Lemma cone_frame_spec t0 t1 p e pt n :
  0 < t0 → 0 < t1 → eps < vy p / t0 * (vy p / t0) + vz p / t1 * (vz p / t1) →
  cone_frame p t0 t1 = Ok (e, pt, n) →
  e = outside_cone t0 t1 p / sqrt 2 ∧
  (let s := cone_s t0 t1 p in
   pt = scl ((vx p + s) / 2) (V3 1 (vy p / s) (vz p / s)) ∧
   ((- s < vx p ∧ n = div3 (cone_grad t0 t1 p) (len (cone_grad t0 t1 p))) ∨
    (vx p < - s ∧ n = neg3 (div3 (cone_grad t0 t1 p) (len (cone_grad t0 t1 p)))))).
Proof.
  intros H0 H1 He H. pose proof eps_pos as Hep.
  unfold cone_frame, rdiv in H.
  destruct (Req_EM_T t0 0) as [|_]; [lra|]. destruct (Req_EM_T t1 0) as [|_]; [lra|]. cbn [mbind res_bind] in H.
  cbv zeta in H.
  replace (mul3 p (V3 1 (1 / t0) (1 / t1))) with (V3 (vx p) (vy p / t0) (vz p / t1)) in H.
  2:{ apply v3_eq; unfold mul3; cbn [vx vy vz]; field; lra. }
  cbn [vx vy vz] in H.
  set (u := vy p / t0) in *. set (v := vz p / t1) in *.
  rewrite (proj2 (rltb_true eps (u * u + v * v)) He) in H.
  set (s := sqrt (u * u + v * v)) in *.
  assert (Hs : 0 < s) by (apply sqrt_lt_R0; lra).
  assert (Hss : s * s = u * u + v * v) by (apply sqrt_sqrt; lra).
  assert (Es : cone_s t0 t1 p = s) by done.
  assert (H2 : 0 < sqrt 2) by (apply sqrt_lt_R0; lra).
  assert (H22 : sqrt 2 * sqrt 2 = 2) by (apply sqrt_sqrt; lra).
  apply bind_ok in H as (n1 & Hn1 & H). apply bind_ok in H as (t' & Ht & H).
  apply normalize3_ok in Hn1 as [Hl1 ->]. apply normalize3_ok in Ht as [Hlt ->].
  assert (L1 : len (V3 (- s) u v) = s * sqrt 2).
  { unfold len. replace (lsq (V3 (- s) u v)) with (s * s * 2).
    2:{ unfold lsq, dot3. cbn [vx vy vz]. nra. }
    rewrite sqrt_mult by nra. by rewrite sqrt_square by lra. }
  assert (L2 : len (V3 0 (- v) u) = s).
  { unfold len. replace (lsq (V3 0 (- v) u)) with (s * s).
    2:{ unfold lsq, dot3. cbn [vx vy vz]. nra. }
    apply sqrt_square. lra. }
  rewrite L1, L2 in H. clear L1 L2 Hl1 Hlt.
  destruct (Req_EM_T (1 / t0) 0) as [E|_]. { assert (0 < 1 / t0) by (apply Rdiv_lt_0_compat; lra). lra. }
  destruct (Req_EM_T (1 / t1) 0) as [E|_]. { assert (0 < 1 / t1) by (apply Rdiv_lt_0_compat; lra). lra. }
  cbn [mbind res_bind] in H.
  apply bind_ok in H as (t2 & Ht2 & H). apply bind_ok in H as (n2 & Hn2 & H).
  apply normalize3_ok in Ht2 as [Hl2 ->]. apply normalize3_ok in Hn2 as [Hln ->].
  injection H as He' Hp' Hn'.
  revert He' Hp' Hn' Hl2 Hln. unfold scl, mul3. cbn [vx vy vz].
  set (w := vx p + s).
  assert (Ed : dot3 (V3 (vx p) u v) (V3 (- (/ (s * sqrt 2) * - s)) (/ (s * sqrt 2) * u) (/ (s * sqrt 2) * v))
               = w / sqrt 2).
  { unfold dot3. cbn [vx vy vz].
    transitivity ((vx p * s + (u * u + v * v)) / (s * sqrt 2)); [field; lra|].
    rewrite <- Hss. subst w. field. lra. }
  rewrite Ed. intros He' Hp' Hn' Hl2 Hln.
  assert (Ept : pt = scl (w / 2) (V3 1 (vy p / s) (vz p / s))).
  { rewrite <- Hp'. apply v3_eq; cbn [scl mul3 vx vy vz]; subst u v.
    - transitivity (w * s / (s * (sqrt 2 * sqrt 2))); [field; lra|]. rewrite H22. field. lra.
    - transitivity (w * vy p / (s * (sqrt 2 * sqrt 2))); [field; lra|]. rewrite H22. field. lra.
    - transitivity (w * vz p / (s * (sqrt 2 * sqrt 2))); [field; lra|]. rewrite H22. field. lra. }
  split.
  { rewrite <- He'. unfold dot3, outside_cone. cbn [scl mul3 vx vy vz]. fold u v s.
    transitivity ((- vx p * s + (u * u + v * v)) / (s * sqrt 2)); [field; lra|]. rewrite <- Hss. field. lra. }
  cbv zeta. rewrite Es. split; [exact Ept|].
  set (tt' := V3 (/ s * 0 * 1) (/ s * - v * (1 / (1 / t0))) (/ s * u * (1 / (1 / t1)))) in *.
  set (g := cone_grad t0 t1 p).
  set (k := w / 2 * (t0 * t1 * / len tt')).
  rewrite Hp' in Hn', Hln.
  assert (EX : cross3 (scl (/ len tt') tt') pt = scl k g).
  { rewrite Ept. subst k g. unfold cone_grad. rewrite Es. clearbody w.
    generalize (/ len tt') as il. intros il.
    subst tt'. apply v3_eq; unfold cross3, scl; cbn [vx vy vz].
    - transitivity (- (w / 2 * (t0 * t1 * il)) * ((u * u + v * v) / (s * s))).
      + subst u v. field. repeat split; lra.
      + rewrite <- Hss. field. lra.
    - subst u v. field. repeat split; lra.
    - subst u v. field. repeat split; lra. }
  change (0 < len (cross3 (scl (/ len tt') tt') pt)) in Hln.
  change (scl (/ len (cross3 (scl (/ len tt') tt') pt)) (cross3 (scl (/ len tt') tt') pt) = n) in Hn'.
  rewrite EX in Hn', Hln.
  assert (Hg : 0 < len g).
  { unfold len. apply sqrt_lt_R0. subst g. unfold cone_grad, lsq, dot3. cbn [vx vy vz].
    pose proof (Rle_0_sqr (vy p / (t0 * t0) / cone_s t0 t1 p)) as Q1.
    pose proof (Rle_0_sqr (vz p / (t1 * t1) / cone_s t0 t1 p)) as Q2. unfold Rsqr in *. lra. }
  assert (Hk0 : 0 < t0 * t1 * / len tt') by (apply Rdiv_lt_0_compat; [nra|exact Hl2]).
  destruct (Rtotal_order w 0) as [Hw|[Hw|Hw]].
  - right. split; [subst w; lra|]. rewrite <- Hn'.
    assert (k < 0) by (subst k; nra).
    assert (EL : len (scl k g) = - k * len g).
    { rewrite <- (len_scl (- k) g) by lra. unfold len. f_equal. unfold lsq, dot3, scl. cbn [vx vy vz]. ring. }
    rewrite EL. apply v3_eq; unfold scl, neg3, div3; cbn [vx vy vz]; field; lra.
  - exfalso. assert (k = 0) by (subst k; rewrite Hw; field; lra).
    rewrite H in Hln. rewrite len_scl in Hln by lra. lra.
  - left. split; [subst w; lra|]. rewrite <- Hn'.
    assert (0 < k) by (subst k; nra).
    rewrite len_scl by lra. apply v3_eq; unfold scl, div3; cbn [vx vy vz]; field; lra.
Qed.
Lemma point_on_cone t0 t1 p :
  0 < t0 → 0 < t1 → 0 < vy p / t0 * (vy p / t0) + vz p / t1 * (vz p / t1) →
  let s := cone_s t0 t1 p in - s <= vx p →
  outside_cone t0 t1 (scl ((vx p + s) / 2) (V3 1 (vy p / s) (vz p / s))) = 0.
Proof.
  intros H0 H1 Hp s Hx. unfold outside_cone. cbn [scl vx vy vz].
  set (u := vy p / t0) in *. set (v := vz p / t1) in *.
  assert (Hs : 0 < s) by by apply sqrt_lt_R0.
  assert (Hss : s * s = u * u + v * v) by (apply sqrt_sqrt; lra).
  set (w := (vx p + s) / 2). assert (0 <= w) by (subst w; lra).
  replace (w * (vy p / s) / t0) with (w / s * u) by (subst u; field; lra).
  replace (w * (vz p / s) / t1) with (w / s * v) by (subst v; field; lra).
  replace (w / s * u * (w / s * u) + w / s * v * (w / s * v)) with (w * w).
  2:{ transitivity (w * w * ((u * u + v * v) / (s * s))); [|field; lra]. rewrite <- Hss. field. lra. }
  rewrite sqrt_square by lra. ring.
Qed.
